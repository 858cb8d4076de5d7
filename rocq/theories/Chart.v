(** The charts of the server: cmd/server/chart/bar.go, score.go and cache.go.  What the
    chart libraries draw is not modelled; what is handed to them is. *)

From Coq Require Import Ascii String List NArith ZArith QArith Qcanon Qround Bool Permutation.
From Verif Require Import Bytes GoSort Slog Replace Regex Bench Num Enums.
Import ListNotations.

(** ** bar.go *)

(** reverse: bar.go 110-118, the swap and the loop over it; a slice as a list. *)
Fixpoint set_at {A} (i : nat) (x : A) (l : list A) : list A :=
  match l, i with [], _ => [] | _ :: t, O => x :: t | y :: t, S i' => y :: set_at i' x t end.
Definition swap {A} (i j : nat) (l : list A) : list A :=
  match nth_error l i, nth_error l j with
  | Some a, Some b => set_at j a (set_at i b l)
  | _, _ => l
  end.
Fixpoint reverse_loop {A} (fuel : nat) (i j : Z) (l : list A) : list A :=
  match fuel with
  | O => l
  | S f => if Z.ltb i j then reverse_loop f (i + 1) (j - 1) (swap (Z.to_nat i) (Z.to_nat j) l) else l
  end.
Definition reverse {A} (l : list A) : list A := reverse_loop (length l) 0 (Z.of_nat (length l) - 1) l.

(** chartTest: bar.go 77-89; chartHandler: 92-104.  They differ in the tags, the names
    and the records. *)
Definition chart_data (name : bytes -> bytes) (recs : gomap trec) (i : item) (tags : list bytes) : list bytes * list Q :=
  let lv := fold_left (fun lv tag =>
    match get tag recs with
    | Some r => (fst lv ++ [name tag], snd lv ++ [item_value r i])
    | None => lv
    end) tags ([], []) in
  (reverse (fst lv), reverse (snd lv)).

(** strings.TrimSuffix *)
Definition trim_suffix (suffix s : bytes) : bytes :=
  if beq (skipn (length s - length suffix) s) suffix then firstn (length s - length suffix) s else s.

(** The number of an item: bench_items.go 7-15. *)
Definition item_of (i : N) : item := nth (N.to_nat i) [Runs; Nanos; MemAllocs; MemBytes; MbPerSec; GbPerSec; TbPerSec] Runs.

(** ** score.go: sizes *)

(** strconv.Atoi *)
Definition is_digit_ (c : ascii) : bool := N.leb 48 (code c) && N.leb (code c) 57.
Definition atoi (s : bytes) : option Z :=
  let (negative, digits) :=
    match s with
    | c :: t => if Ascii.eqb c (chr 45) then (true, t) else if Ascii.eqb c (chr 43) then (false, t) else (false, s)
    | [] => (false, [])
    end in
  match digits with
  | [] => None
  | _ =>
    if forallb is_digit_ digits then
      let n := digits_value digits in
      if negative then if N.leb n (2 ^ 63) then Some (- Z.of_N n)%Z else None
      else if N.ltb n (2 ^ 63) then Some (Z.of_N n) else None
    else None
  end.

Definition pct (n : Z) : xnum := Fin (Qc_of_Z n).

(** sizeData: score.go 74-80; adjust is its height only; the names, adjust.x and sizeX
    are left out. *)
Record size : Type := { sz_low_x : xnum; sz_low_y : xnum; sz_adjust : Qc; sz_label_x : Qc }.
(** sizes: score.go 82-120, with adjust: 57-62. *)
Definition label_height : Qc := Q2Qc (9 # 2).
Definition sizes : list size := [
  {| sz_low_x := pct 0; sz_low_y := pct 0; sz_adjust := label_height; sz_label_x := Qc_of_Z 110 |};
  {| sz_low_x := pct 25; sz_low_y := pct 25; sz_adjust := (label_height * Q2Qc (7 # 10))%Qc; sz_label_x := Q2Qc (215 # 2) |};
  {| sz_low_x := pct 50; sz_low_y := pct 50; sz_adjust := (label_height * Q2Qc (1 # 2))%Qc; sz_label_x := Qc_of_Z 105 |};
  {| sz_low_x := pct 75; sz_low_y := pct 75; sz_adjust := (label_height * Q2Qc (2 # 5))%Qc; sz_label_x := Q2Qc (205 # 2) |}].
Definition full_size : size := nth 0 sizes {| sz_low_x := NaN; sz_low_y := NaN; sz_adjust := 0; sz_label_x := 0 |}.
Definition size_at (n : nat) : size := nth n sizes full_size.

(** scoreChartSize: score.go 144-170. *)
Definition score_chart_size (text : bytes) : Z :=
  match text with
  | [] => 0
  | _ =>
    let n := match atoi text with Some n => n | None => 0 end in
    let n := if Z.ltb n 0 then 0 else n in
    let high := (Z.of_nat (length sizes) - 1)%Z in
    if Z.ltb 0 n && Z.ltb high n then high else n
  end%Z.

(** ** score.go: the data *)

(** [a >= b] of two floats. *)
Definition xge (a b : xnum) : bool :=
  match a, b with NaN, _ | _, NaN => false | _, _ => negb (xlt a b) end.

Section Data.
(** ScoreFor of the two axes; no value if it panics. *)
Variables (xs ys : bytes -> option xnum).

(** newChartData: score.go 189-220; the map from handler to (x, y).  No value if it panics. *)
Fixpoint add_ys (low : xnum) (tags : list bytes) (m : gomap (xnum * xnum)) : option (gomap (xnum * xnum)) :=
  match tags with
  | [] => Some m
  | h :: ts =>
    match ys h with
    | None => None
    | Some y => add_ys low ts (if xge y low then put h (Fin 0, y) m else m)
    end
  end.
Fixpoint add_xs (low : xnum) (tags : list bytes) (m : gomap (xnum * xnum)) : option (gomap (xnum * xnum)) :=
  match tags with
  | [] => Some m
  | h :: ts =>
    match get h m with
    | None => add_xs low ts m
    | Some (_, y) =>
      match xs h with
      | None => None
      | Some x => add_xs low ts (if xge x low then put h (x, y) m else drop h m)
      end
    end
  end.
Definition new_chart_data (handlers warned : list bytes) (s : size) : option (gomap (xnum * xnum)) :=
  match add_ys (sz_low_y s) handlers [] with
  | None => None
  | Some m => add_xs (sz_low_x s) warned m
  end.

(** SmallestChartSize: score.go 222-234.  The inner loop: whether a handler is below the
    size; the outer loop over the sizes from the second. *)
Fixpoint any_below (s : size) (handlers : list bytes) : option bool :=
  match handlers with
  | [] => Some false
  | h :: hs =>
    match ys h with
    | None => None
    | Some y =>
      if xlt y (sz_low_y s) then Some true else
      match xs h with
      | None => None
      | Some x => if xlt x (sz_low_x s) then Some true else any_below s hs
      end
    end
  end.
Fixpoint smallest_from (handlers : list bytes) (ss : list size) (n smallest : nat) : option nat :=
  match ss with
  | [] => Some smallest
  | s :: ss' =>
    match any_below s handlers with
    | None => None
    | Some true => Some smallest
    | Some false => smallest_from handlers ss' (S n) n
    end
  end.
Definition smallest_chart_size (handlers : list bytes) : option nat := smallest_from handlers (tl sizes) 1 0.

End Data.

(** ** score.go: markers *)

Record marker : Type := { mk_label : bytes; mk_x : xnum; mk_y : xnum; mk_label_y : xnum }.
Definition tiny : xnum := Fin (Q2Qc (1 # 100000)).

(** dataMarkers: score.go 306-355.  The range loop takes any order.  The comparison given
    to sort.Slice is not a strict order (it is >=), so the result of the sort is any
    reordering here. *)
Definition visible (e : bytes * (xnum * xnum)) : bool := xlt tiny (snd (snd e)).
Definition span_top (t : xnum) (e : bytes * (xnum * xnum)) : xnum := if xlt t (snd (snd e)) then snd (snd e) else t.
Definition span_bottom (b : xnum) (e : bytes * (xnum * xnum)) : xnum := if xlt (snd (snd e)) b then snd (snd e) else b.
Definition first_label (s : size) (handlers : nat) (items : list (bytes * (xnum * xnum))) : xnum :=
  let necessary := (Qc_of_Z (Z.of_nat handlers) * (sz_adjust s + 1) + 1)%Qc in
  let top := fold_left span_top items (pct 0) in
  let bottom := fold_left span_bottom items (pct 100) in
  let top := xadd (xdiv (xadd top bottom) (pct 2)) (xdiv (Fin necessary) (pct 2)) in
  if xlt (pct 100) top then pct 100 else top.
Fixpoint place (name : bytes -> bytes) (s : size) (top : xnum) (items : list (bytes * (xnum * xnum))) : list marker :=
  match items with
  | [] => []
  | (h, (x, y)) :: rest =>
    {| mk_label := name h; mk_x := x; mk_y := y; mk_label_y := top |} :: place name s (xsub top (Fin (sz_adjust s + 1))) rest
  end.
Definition data_markers (name : bytes -> bytes) (s : size) (m : gomap (xnum * xnum)) (out : list marker) : Prop :=
  exists l sorted, Permutation m l /\ Permutation (filter visible l) sorted /\
    out = place name s (first_label s (length m) (filter visible l)) sorted.

(** ** score.go: ticks *)

(** scoreChartTicks: score.go 432-454, the values; a float64 is a rational. *)
Definition tick_distance (low : Q) : Q :=
  if Qle_bool (100 - low) 10 then 2 else if Qle_bool (100 - low) 25 then 2 else if Qle_bool (100 - low) 50 then 5 else 10.
(** math.Remainder(t, d) is zero if t is a multiple of d. *)
Definition multiple (d t : Q) : bool := Qeq_bool (inject_Z (Qfloor (t / d)) * d) t.
Definition next_tick (d t : Q) : Q := if multiple d t then t + d else inject_Z (Qceiling (t / d)) * d.
Fixpoint ticks_from (fuel : nat) (d t : Q) : list Q :=
  match fuel with
  | O => []
  | S f => if Qle_bool t 100 then t :: ticks_from f d (next_tick d t) else []
  end.
Definition ticks (low : Q) : list Q :=
  let d := tick_distance low in ticks_from (2 + Z.to_nat (Qceiling ((100 - low) / d))) d low.

(** ** Requests and the cache (cache.go) *)

Inductive request : Type := BarFor (tag item : bytes) | ScoreFor_ (keeper size : bytes).
(** Nothing is written; the error page with status 400; the image; a panic. *)
Inductive response : Type := Silent | BadRequest | Image (svg : bytes) | Panicked.

Section Serve.
Variable cs : casing.
Variable b : bench.
(** What HandlerTags and TestTags return (Bench.v). *)
Variables (htags ttags : list bytes).
(** What go-charts draws for a title, labels and values. *)
Variable render : bytes -> list bytes -> list Q -> bytes.
(** Whether newChartData panics for a keeper and a size; what can come of drawing it
    (the markers are in any order), nothing if Render gives an error. *)
Variable panics : bytes -> Z -> bool.
Variable draws : bytes -> Z -> option bytes -> Prop.

(** Bar: bar.go 15-74, the item, the key and what is drawn on a miss. *)
Definition bar_item (text : bytes) : option N := enum_parse cs items (trim_suffix (B ".svg") text).
Definition bar_key (tag : bytes) (i : N) : bytes := tag ++ B ":" ++ enum_string items i.
Definition bar_chart (tag : bytes) (i : N) : option (list bytes * list Q) :=
  match get tag (b_by_test b) with
  | Some recs => Some (chart_data (b_handler_name b) recs (item_of i) htags)
  | None =>
    match get tag (b_by_handler b) with
    | Some recs => Some (chart_data (b_test_name b) recs (item_of i) ttags)
    | None => None
    end
  end.
(** Score: score.go 124-141, the key. *)
Definition score_key (keeper : bytes) (n : Z) : bytes := (B "score:" ++ keeper) ++ B ":" ++ dec_of_Z n.

Inductive phase : Type := Waiting | Missed | Answered (r : response).

(** A request looks into the cache under the mutex, and on a miss draws and stores under
    the mutex again; other requests run in between. *)
Inductive advance (c : gomap bytes) : request -> phase -> gomap bytes -> phase -> Prop :=
| a_bad_item tag it : bar_item it = None -> advance c (BarFor tag it) Waiting c (Answered Silent)
| a_bar_hit tag it i svg : bar_item it = Some i -> get (bar_key tag i) c = Some svg ->
    advance c (BarFor tag it) Waiting c (Answered (Image svg))
| a_bar_miss tag it i : bar_item it = Some i -> get (bar_key tag i) c = None -> advance c (BarFor tag it) Waiting c Missed
| a_bar_none tag it i : bar_item it = Some i -> bar_chart tag i = None ->
    advance c (BarFor tag it) Missed c (Answered BadRequest)
| a_bar_drawn tag it i labels values : bar_item it = Some i -> bar_chart tag i = Some (labels, values) ->
    advance c (BarFor tag it) Missed (put (bar_key tag i) (render (long_name i) labels values) c)
      (Answered (Image (render (long_name i) labels values)))
| a_score_hit k sz svg : get (score_key k (score_chart_size sz)) c = Some svg ->
    advance c (ScoreFor_ k sz) Waiting c
      (Answered (if panics k (score_chart_size sz) then Panicked else Image svg))
| a_score_miss k sz : get (score_key k (score_chart_size sz)) c = None -> advance c (ScoreFor_ k sz) Waiting c Missed
| a_score_panic k sz : panics k (score_chart_size sz) = true -> advance c (ScoreFor_ k sz) Missed c (Answered Panicked)
| a_score_error k sz : panics k (score_chart_size sz) = false -> draws k (score_chart_size sz) None ->
    advance c (ScoreFor_ k sz) Missed c (Answered (Image []))
| a_score_drawn k sz svg : panics k (score_chart_size sz) = false -> draws k (score_chart_size sz) (Some svg) ->
    advance c (ScoreFor_ k sz) Missed (put (score_key k (score_chart_size sz)) svg c) (Answered (Image svg)).

(** Requests in progress, numbered; any of them goes on. *)
Definition server : Type := (gomap bytes * list (request * phase))%type.
Inductive turn : server -> server -> Prop :=
| t_arrive c rs r : turn (c, rs) (c, rs ++ [(r, Waiting)])
| t_advance c rs i r p c' p' : nth_error rs i = Some (r, p) -> advance c r p c' p' ->
    turn (c, rs) (c', set_at i (r, p') rs).
Inductive turns : server -> server -> Prop :=
| ts_none s : turns s s
| ts_more s s' s'' : turns s s' -> turn s' s'' -> turns s s''.

End Serve.
