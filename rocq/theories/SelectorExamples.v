(** Concrete documents and selectors for the checks beside the theorems. *)
From Coq Require Import ZArith NArith List Bool String.
From Verif Require Import BloomModel SelectorModel SelectorSpec.
Import ListNotations.
Local Open Scope string_scope.
Local Open Scope list_scope.

Definition tag (name : string) : ndata := mknode true name "" None [] [] false.
Definition tag_id (name i : string) : ndata := mknode true name "" (Some i) [] [] false.
Definition tag_class (name c : string) : ndata := mknode true name "" None [c] [] false.

(** [<html><nav/><main id=m><p/><span/><p class=x/><em/></main></html>] *)
Definition ex_html : elem := Elem (tag "html") [] [] None.
Definition ex_main : elem := Elem (tag_id "main" "m") [tag "nav"] [] (Some ex_html).
Definition ex_p : elem := Elem (tag_class "p" "x") [tag "span"; tag "p"] [tag "em"] (Some ex_main).
Definition ex_span : elem := Elem (tag "span") [tag "p"] [tag_class "p" "x"; tag "em"] (Some ex_main).

Definition strict : ctx := mkctx false None.
Definition local (name : string) : comp := CLocal name name.

(** [html #m > p ~ .x:nth-child(2n+1):not(span > p)] *)
Definition ex_inner : sel :=
  match selector_from [local "span"; CComb Child; local "p"] with Some s => s | None => (0%N, []) end.
Definition ex_parts : list (list comp) :=
  [[local "html"]; [CId "m"]; [local "p"]; [CClass "x"; CNth NChild 2 1; CNot [ex_inner]]].
Definition ex_combs : list comb := [Descendant; Child; LaterSibling].
Definition ex_sel : sel :=
  match selector_from (interleave ex_parts ex_combs) with Some s => s | None => (0%N, []) end.

(** A hash that tells the names above apart. *)
Definition ex_hash (s : string) : N :=
  match s with
  | "html" => 5000 | "main" => 70001 | "m" => 900002 | "p" => 33 | "x" => 44 | "" => 55
  | _ => 66
  end%N.

(** What a caller walking down to the children of [main] puts in the filter,
    after having been in and out of [nav]. *)
Definition ex_walk : list bop :=
  map (fun s => Insert (ex_hash s)) ["html"; ""; "nav"; ""]
  ++ map (fun s => Remove (ex_hash s)) ["nav"; ""]
  ++ map (fun s => Insert (ex_hash s)) ["main"; ""; "m"].
Definition ex_filter : counters :=
  match run_bops empty_filter ex_walk with Some c => c | None => empty_filter end.
