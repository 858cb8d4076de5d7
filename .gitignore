*.vo
*.vos
*.vok
*.glob
.*.aux
.lia.cache
.nia.cache
.Makefile.coq.d
.Makefile.d
rocq/Makefile
rocq/Makefile.conf
.nra.cache
