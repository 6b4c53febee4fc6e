(** * The options of CSS modules, one by one *)
From Coq Require Import List Bool String.
From Verif Require Import PatternModel PrinterModel.

(** The options that decide whether the names of such a place are local. *)
Definition options (c : config) (k : site) : list bool :=
  match k with
  | ClassName | IdName => cons true nil
  | KeyframesIdent | KeyframesString | AnimationString => cons (cf_animation c) nil
  | AnimationIdent => cons (cf_animation c) (cons (cf_custom c) nil)
  | CounterStyle | OtherCustomIdent => cons (cf_custom c) nil
  | GridName => cons (cf_grid c) nil
  | ContainerName => cons (cf_container c) (cons (cf_custom c) nil)
  end.
Definition local_on (c : config) (k : site) : Prop := forallb (fun b => b) (options c k) = true.
(** The first option of the place is off. *)
Definition local_off (c : config) (k : site) : Prop := hd true (options c k) = false.
(** The same options with all kinds of names local *)
Definition with_all (c : config) : config := mkconfig (cf_pattern c) (cf_dashed c) true true true true.
