(** * What declarations of [position] mean *)

From Coq Require Import List String Bool.
From Verif Require Import PositionModel.
Import ListNotations.

(** The keywords of CSS, and the one of WebKit *)
Inductive keyword : string -> position -> Prop :=
| k_static : keyword "static" Static
| k_relative : keyword "relative" Relative
| k_absolute : keyword "absolute" Absolute
| k_fixed : keyword "fixed" Fixed
| k_sticky : keyword "sticky" (Sticky true false)
| k_webkit : keyword "-webkit-sticky" (Sticky false true).

(** What a browser does; [Computed] is left to when the page is shown. *)
Inductive effect := Placed (v : position) | Stuck | Computed (n : nat).

(** A browser may know [sticky], [-webkit-sticky], both or neither. *)
Record browser := { knows_sticky : bool; knows_webkit : bool }.

Definition effect_of (b : browser) (d : decl) : option effect :=
  match d with
  | Pos (Sticky bare webkit) =>
      if (bare && knows_sticky b) || (webkit && knows_webkit b) then Some Stuck else None
  | Pos v => Some (Placed v)
  | Tokens n => Some (Computed n)
  end.

(** The last declaration the browser understands counts. *)
Fixpoint effective (b : browser) (l : list decl) (before : option effect) : option effect :=
  match l with
  | [] => before
  | d :: rest =>
      effective b rest (match effect_of b d with Some e => Some e | None => before end)
  end.

Definition typed (d : decl) : Prop := exists w v, d = Pos v /\ keyword w v.

Definition sticky (d : decl) : bool := match d with Pos (Sticky _ _) => true | _ => false end.

Definition tokens (d : decl) : bool := match d with Tokens _ => true | _ => false end.

(** No fallback is needed: the block ends with a declaration the browser
    understands, or with declarations of [sticky] of which it understands
    one. *)
Definition settled (b : browser) (l : list decl) : Prop :=
  exists before d after,
    l = before ++ d :: after /\ effect_of b d <> None /\
    (after = [] \/ (sticky d = true /\ forallb sticky after = true)).

(** A browser without [sticky] *)
Definition old : browser := {| knows_sticky := false; knows_webkit := false |}.
