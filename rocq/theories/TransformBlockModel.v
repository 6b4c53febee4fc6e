(** * The handler of [transform], [translate], [rotate] and [scale] (src/properties/transform.rs:1709-1819) *)
From Coq Require Import List Bool.
From Verif Require Import PrefixModel.
Import ListNotations.

(** The individual properties *)
Inductive which := WTranslate | WRotate | WScale.
Definition which_eqb (a b : which) : bool := match a, b with WTranslate, WTranslate | WRotate, WRotate | WScale, WScale => true | _, _ => false end.

Section Handler.
(** [T]: a transform function; [V]: the values of the individual properties with [to_transform] of each
    (transform.rs:1497, 1611, 1694); [U]: tokens of an unparsed value; [leq]: equality of lists *)
Variables T V U : Type.
Variable to_transform : V -> T.
Variable leq : list T -> list T -> bool.
(** [targets.prefixes(_, Feature::Transform)]; the feature is number 0 of [targets] *)
Variable t : targets.

(** The declarations of a block; [None] for [Unparsed] is [transform] *)
Inductive decl :=
| Transform (l : list T) (s : pset)
| Individual (w : which) (v : V)
| Unparsed (w : option which) (u : U) (s : pset)
| Other (n : nat).

(** transform.rs:1709-1716; [dest] is the list of declarations *)
Record state := State { transform : option (list T * pset); single_values : which -> option V; has_any : bool; dest : list decl }.
Definition empty : which -> option V := fun _ => None.
Definition start : state := State None empty false [].
Definition set (f : which -> option V) (w : which) (v : V) : which -> option V := fun x => if which_eqb w x then Some v else f x.
(** transform.rs:1790-1818 *)
Definition flush (s : state) : state :=
  if has_any s then
    State None empty false
      (dest s ++ match transform s with Some (l, p) => [Transform l (prefixes t p 0)] | None => [] end
              ++ flat_map (fun w => match single_values s w with Some v => [Individual w v] | None => [] end) [WTranslate; WRotate; WScale])
  else s.
(** transform.rs:1719-1782, and declaration.rs:246-250 for declarations that are not handled.
    [or_none] of custom.rs:164 makes the empty set of an unprefixable property [none]; it is only used for
    [transform] here, where the set is not empty. *)
Definition handle (s : state) (d : decl) : state :=
  match d with
  | Transform l p =>
      let s := match transform s with
               | Some (cur, ps) => if negb (leq cur l) && negb (includes ps p) then flush s else s
               | None => s
               end in
      match transform s with
      | Some (_, ps) => State (Some (l, union ps p)) empty (has_any s) (dest s)
      | None => State (Some (l, p)) empty true (dest s)
      end
  | Individual w v =>
      match transform s with
      | Some (l, ps) => State (Some (l ++ [to_transform v], ps)) (single_values s) (has_any s) (dest s)
      | None => State None (set (single_values s) w v) true (dest s)
      end
  | Unparsed w u p =>
      let s := flush s in
      State (transform s) (single_values s) (has_any s)
            (dest s ++ [match w with None => Unparsed None u (prefixes t p 0) | Some _ => d end])
  | Other _ => State (transform s) (single_values s) (has_any s) (dest s ++ [d])
  end.
Definition minify (l : list decl) : list decl := dest (flush (fold_left handle l start)).
End Handler.
Arguments Transform {T V U}. Arguments Individual {T V U}. Arguments Unparsed {T V U}. Arguments Other {T V U}.
Arguments State {T V U}. Arguments transform {T V U}. Arguments single_values {T V U}. Arguments has_any {T V U}. Arguments dest {T V U}.
