(** The traffic lines logged by one of the benchmarks: bench/tests/logging.txt,
    unchanged. *)

From Coq Require Import Ascii String List.
From Verif Require Import Bytes.

Definition logging : bytes := B
"07:55:40 INF 200 |    1.091422ms |             ::1 | GET      ""/test?tag=SimpleSource""
07:55:40 INF 200 |        5.24µs |             ::1 | GET      ""/style.css""
07:55:40 INF 200 |      35.553µs |             ::1 | GET      ""/home.svg""
07:55:40 INF 200 |    7.192036ms |             ::1 | GET      ""/chart.svg?tag=SimpleSource&item=Nanos""
07:55:40 INF 200 |    8.404823ms |             ::1 | GET      ""/chart.svg?tag=SimpleSource&item=MemBytes""
07:55:40 INF 200 |    9.148808ms |             ::1 | GET      ""/chart.svg?tag=SimpleSource&item=MemAllocs""
07:55:40 INF 200 |    9.767509ms |             ::1 | GET      ""/chart.svg?tag=SimpleSource&item=GbPerSec""
07:55:52 INF 200 |    2.512908ms |             ::1 | GET      ""/handler?tag=samberZap""
07:55:52 INF 200 |       4.875µs |             ::1 | GET      ""/style.css""
07:55:52 INF 200 |      30.783µs |             ::1 | GET      ""/home.svg""
07:55:52 INF 200 |    9.522199ms |             ::1 | GET      ""/chart.svg?tag=samberZap&item=MemAllocs""
07:55:52 INF 200 |    9.559082ms |             ::1 | GET      ""/chart.svg?tag=samberZap&item=MemBytes""
07:55:52 INF 200 |   12.737197ms |             ::1 | GET      ""/chart.svg?tag=samberZap&item=Nanos""
07:55:52 INF 200 |   12.360438ms |             ::1 | GET      ""/chart.svg?tag=samberZap&item=GbPerSec""
07:55:53 INF 200 |     385.679µs |             ::1 | GET      ""/test?tag=BigGroup""
07:55:53 INF 200 |        5.69µs |             ::1 | GET      ""/style.css""
07:55:53 INF 200 |      20.222µs |             ::1 | GET      ""/home.svg""
07:55:53 INF 200 |    7.390374ms |             ::1 | GET      ""/chart.svg?tag=BigGroup&item=Nanos""
07:55:53 INF 200 |    7.307819ms |             ::1 | GET      ""/chart.svg?tag=BigGroup&item=MemBytes""
07:55:53 INF 200 |    6.485709ms |             ::1 | GET      ""/chart.svg?tag=BigGroup&item=GbPerSec""
07:55:53 INF 200 |    9.998795ms |             ::1 | GET      ""/chart.svg?tag=BigGroup&item=MemAllocs""
07:55:55 INF 200 |     395.741µs |             ::1 | GET      ""/test?tag=WithAttrsAttributes""
07:55:55 INF 200 |       4.278µs |             ::1 | GET      ""/style.css""
07:55:55 INF 200 |      21.861µs |             ::1 | GET      ""/home.svg""
07:55:55 INF 200 |     5.10954ms |             ::1 | GET      ""/chart.svg?tag=WithAttrsAttributes&item=Nanos""
07:55:55 INF 200 |    5.651326ms |             ::1 | GET      ""/chart.svg?tag=WithAttrsAttributes&item=MemBytes""
07:55:55 INF 200 |    5.342417ms |             ::1 | GET      ""/chart.svg?tag=WithAttrsAttributes&item=GbPerSec""
07:55:55 INF 200 |    5.565283ms |             ::1 | GET      ""/chart.svg?tag=WithAttrsAttributes&item=MemAllocs""
07:55:57 INF 200 |     473.763µs |             ::1 | GET      ""/handler?tag=slogJSON""
07:55:57 INF 200 |       5.238µs |             ::1 | GET      ""/style.css""
07:55:57 INF 200 |      20.574µs |             ::1 | GET      ""/home.svg""
07:55:57 INF 200 |   11.287222ms |             ::1 | GET      ""/chart.svg?tag=slogJSON&item=Nanos""
07:55:57 INF 200 |   11.645729ms |             ::1 | GET      ""/chart.svg?tag=slogJSON&item=MemAllocs""
07:55:57 INF 200 |   10.784843ms |             ::1 | GET      ""/chart.svg?tag=slogJSON&item=GbPerSec""
07:55:57 INF 200 |   10.743304ms |             ::1 | GET      ""/chart.svg?tag=slogJSON&item=MemBytes""
07:55:59 INF 200 |    1.908524ms |             ::1 | GET      ""/test?tag=Disabled""
07:55:59 INF 200 |       8.394µs |             ::1 | GET      ""/style.css""
07:55:59 INF 200 |      19.174µs |             ::1 | GET      ""/home.svg""
07:55:59 INF 200 |    3.148083ms |             ::1 | GET      ""/chart.svg?tag=Disabled&item=Nanos""
07:55:59 INF 200 |    5.809804ms |             ::1 | GET      ""/chart.svg?tag=Disabled&item=MemBytes""
07:55:59 INF 200 |    5.301259ms |             ::1 | GET      ""/chart.svg?tag=Disabled&item=GbPerSec""
07:55:59 INF 200 |    5.938581ms |             ::1 | GET      ""/chart.svg?tag=Disabled&item=MemAllocs""
07:56:00 INF 200 |    1.050459ms |             ::1 | GET      ""/""
07:56:01 INF 200 |       6.049µs |             ::1 | GET      ""/style.css""
07:56:03 INF 200 |    1.194613ms |             ::1 | GET      ""/test?tag=WithGroupKeyValues""
07:56:03 INF 200 |      26.337µs |             ::1 | GET      ""/style.css""
07:56:03 INF 200 |      18.688µs |             ::1 | GET      ""/home.svg""
07:56:03 INF 200 |    6.454931ms |             ::1 | GET      ""/chart.svg?tag=WithGroupKeyValues&item=Nanos""
07:56:03 INF 200 |    6.330412ms |             ::1 | GET      ""/chart.svg?tag=WithGroupKeyValues&item=MemAllocs""
07:56:03 INF 200 |      6.5129ms |             ::1 | GET      ""/chart.svg?tag=WithGroupKeyValues&item=MemBytes""
07:56:03 INF 200 |    6.355996ms |             ::1 | GET      ""/chart.svg?tag=WithGroupKeyValues&item=GbPerSec""
".
