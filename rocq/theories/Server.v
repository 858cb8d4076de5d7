(** Model of the pages of the web server: the cache of text files (cmd/server/text.go)
    and the function that answers the request for a page (cmd/server/server.go 331-476).
    The charts are in Chart.v.

    Left out: the router (a request is given by its page and its parameters), what the
    templates print besides the title, the text item and the errors, the functions of
    the language printer, the log messages of pageFunction, and the fields of
    templateData that are the same for all requests.  Running a template is a function
    of the page and of its data, of which the theorems demand what html/template does
    with the parts that are named there. *)

From Coq Require Import Ascii String List NArith Bool.
From Verif Require Import Bytes GoSort WarnParser Bench Chart.
Import ListNotations.
Local Open Scope list_scope.

(** ** text.go *)

(** TextItem: text.go 11-16. *)
Record text_item : Type := { ti_name : bytes; ti_path : bytes; ti_summary : bytes; ti_data : bytes }.

(** SafeName: text.go 18-23; [None] is nil. *)
Definition safe_name (i : option text_item) : bytes := match i with None => [] | Some i => ti_name i end.

(** TextCache: text.go 25-29.  The items are pointers, those of the list the same as
    those of the map; none changes after NewTextCache, so values do. *)
Record text_cache : Type := { tc_cache : gomap text_item; tc_items : list text_item }.

Section Text.
(** os.ReadFile when the server starts; markdown.TemplateHTML. *)
Variable read_file : bytes -> option bytes.
Variable markdown : bytes -> bytes.

(** The loop of NewTextCache: text.go 37-49.  The items are distinct objects, so each
    summary is rendered once. *)
Fixpoint load (items : list text_item) (cache : gomap text_item) (names : list bytes) : gomap text_item * list bytes :=
  match items with
  | [] => (cache, names)
  | i :: rest =>
    match read_file (ti_path i) with
    | None => load rest cache names
    | Some [] => load rest cache names
    | Some data =>
      let i' := {| ti_name := ti_name i; ti_path := ti_path i; ti_summary := markdown (ti_summary i); ti_data := data |} in
      load rest (put (ti_name i) i' cache) (names ++ [ti_name i])
    end
  end.

(** The list: text.go 50-52.  Each name is in the map. *)
Fixpoint collect (cache : gomap text_item) (names : list bytes) : list text_item :=
  match names with
  | [] => []
  | n :: rest => match get n cache with Some i => i :: collect cache rest | None => collect cache rest end
  end.

(** NewTextCache: text.go 31-54. *)
Definition new_text_cache (items : list text_item) : text_cache :=
  let (cache, names) := load items [] [] in {| tc_cache := cache; tc_items := collect cache names |}.
End Text.

(** HasText: text.go 56-58. *)
Definition has_text (tc : text_cache) : bool := match tc_cache tc with [] => false | _ => true end.

(** TextItem: text.go 60-72. *)
Definition find_text (tc : text_cache) (path : bytes) : text_item :=
  match get path (tc_cache tc) with
  | Some i => i
  | None => {| ti_name := []; ti_path := path; ti_summary := B "Text Not Found"; ti_data := B "Path: " ++ path |}
  end.

(** ** server.go *)

(** The pages: server.go 84-92. *)
Inductive page : Type := PHome | PTest | PHandler | PScores | PWarnings | PGuts | PText | PError.
Definition page_eqb (a b : page) : bool :=
  match a, b with
  | PHome, PHome | PTest, PTest | PHandler, PHandler | PScores, PScores
  | PWarnings, PWarnings | PGuts, PGuts | PText, PText | PError, PError => true
  | _, _ => false
  end.

(** The function dict of the templates: server.go 446-455.  [as_string]: the type
    assertion. *)
Section Dict.
Variable value : Type.
Variable as_string : value -> option bytes.
Fixpoint dict_from (v : list value) (m : gomap value) : gomap value :=
  match v with
  | k :: x :: rest => dict_from rest (match as_string k with Some s => put s x m | None => m end)
  | _ => m
  end.
Definition dict (v : list value) : gomap value := dict_from v [].
End Dict.

Section Pages.
Variable keeper : Type.

(** templateData: server.go 334-348, the fields that depend on the request. *)
Record page_data : Type := {
  d_keeper : option keeper;
  d_handler : bytes;
  d_test : bytes;
  d_item : option text_item;
  d_errors : list bytes
}.

(** gin.Context, as far as pageFunction changes it: what was written, the status of the
    answer (200 unless set), and the errors added to it. *)
Record context : Type := { x_body : bytes; x_status : N; x_errors : list bytes }.

(** The parameters of the request; one that is not in the route is empty. *)
Record params : Type := { p_keeper : bytes; p_tag : bytes }.

Variable text : text_cache.
(** The registry of score keepers (Keepers.v) as a map. *)
Variable keepers : gomap keeper.
(** Running a template: what it printed, and the error that ended it. *)
Variable execute : page -> page_data -> bytes * option bytes.
(** Sending: what went out, and the error that ended it. *)
Variable send : bytes -> bytes * option bytes.

(** The data of a page: server.go 378-422. *)
Definition page_data_for (p : page) (q : params) (errors : list bytes) : page_data :=
  let k := get (p_keeper q) keepers in
  let tag := trim_suffix (B ".html") (p_tag q) in
  let k' := match p, k with PScores, None => get (B "Default") keepers | _, _ => k end in
  {| d_keeper := k';
     d_handler := match p, p_tag q with PHandler, _ :: _ => tag | _, _ => [] end;
     d_test := match p, p_tag q with PTest, _ :: _ => tag | _, _ => [] end;
     d_item :=
       match p, p_tag q with
       | PHome, [] => Some {| ti_name := B "<noFile>"; ti_path := []; ti_summary := B "No text item"; ti_data := [] |}
       | (PHome | PText), _ :: _ => Some (find_text text (p_tag q))
       | _, _ => None
       end;
     d_errors := match p with PError => errors | _ => [] end |}.

(** One run of the function that pageFunction returns, without the page of the errors:
    server.go 377-434.  [true]: the template failed. *)
Definition page_once (p : page) (q : params) (x : context) : bool * context :=
  match execute p (page_data_for p q (x_errors x)) with
  | (_, Some err) => (true, {| x_body := x_body x; x_status := x_status x; x_errors := x_errors x ++ [err] |})
  | (buf, None) =>
    let (sent, failed) := send buf in
    (false, {| x_body := x_body x ++ sent; x_status := x_status x;
               x_errors := match failed with Some err => x_errors x ++ [err] | None => x_errors x end |})
  end.

(** pageFunction: server.go 376-436. *)
Definition page_function (p : page) (q : params) (x : context) : context :=
  let (failed, x') := page_once p q x in
  if failed && negb (page_eqb p PError) then snd (page_once PError q x') else x'.
End Pages.
Arguments d_keeper {_}. Arguments d_handler {_}. Arguments d_test {_}. Arguments d_item {_}. Arguments d_errors {_}.
Arguments page_data_for {_}. Arguments page_once {_}. Arguments page_function {_}.

(** ** The templates *)

(** The title: the calls of partHeader in cmd/server/pages, each on line 11 but for
    handler.gohtml 11-12 and test.gohtml 11-17.  [None]: $.Item.Name of nil, an error. *)
Definition in_fixed (what name : bytes) : bytes :=
  what ++ B " <span class=""fixed"">" ++ name ++ B "</span>".
Definition page_title {keeper} (b : bench) (w : wdata) (p : page) (d : page_data keeper) : option bytes :=
  match p with
  | PHome => Some (B "Home")
  | PTest => Some (in_fixed (B "Test")
      (if has_test b (d_test d) then b_test_name b (d_test d) else w_test_name w (d_test d)))
  | PHandler => Some (in_fixed (B "Handler") (b_handler_name b (d_handler d)))
  | PScores => Some (B "Handler Scores")
  | PWarnings => Some (B "Warnings")
  | PGuts => Some (B "Data and Warnings")
  | PText => match d_item d with Some i => Some (in_fixed (B "Text File") (ti_name i)) | None => None end
  | PError => Some (B "Server Error")
  end.

(** html/template's htmlReplacer with its table for text between tags. *)
Definition html_escape_char (c : ascii) : bytes :=
  if N.eqb (code c) 0 then [chr 239; chr 191; chr 189]
  else if N.eqb (code c) 34 then B "&#34;"
  else if N.eqb (code c) 38 then B "&amp;"
  else if N.eqb (code c) 39 then B "&#39;"
  else if N.eqb (code c) 43 then B "&#43;"
  else if N.eqb (code c) 60 then B "&lt;"
  else if N.eqb (code c) 62 then B "&gt;"
  else [c].
Definition html_escape (s : bytes) : bytes := flat_map html_escape_char s.
