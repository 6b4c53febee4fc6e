(** * Nested rules for the examples *)
From Coq Require Import List.
From Verif Require Import SelectorModel SelectorSpec NestModel NestSpec.
Import ListNotations.
Local Open Scope list_scope.

(** [.a .b, .c > p { color; &.x { } > .y { } .z & { } @media { &:not(:is(.d &)) { } } more }] *)
Definition sheet : list nrule :=
  [Style [[Atom 0; Comb Descendant; Atom 1]; [Atom 2; Comb Child; Local 0]] [1]
    [Style [[Nesting; Atom 3]] [2] [];
     Style [[Nesting; Comb Child; Atom 4]] [3] [];
     Style [[Atom 5; Comb Descendant; Nesting]] [4] [Style [[Nesting; Local 1]; [Univ; Atom 1]] [5] []];
     Cond 7 [Style [[Nesting; Not [[Is [[Atom 6; Comb Descendant; Nesting]]]]]] [6] []; Decls [9]];
     Style [[Atom 6; Has [[Scope; Comb Child; Nesting]; [Atom 8]]]; [Nesting; Comb Child; Univ; NthOf 2 [[Nesting; Comb Child; Atom 3]]; Pseudo 1]] [7] [];
     Decls [8]]].
(** [.card { &:hover { } .icon & { } :is(&, .x) > & { } }]: the one enclosing selector takes the place of [&]. *)
Definition card : list nrule :=
  [Style [[Atom 0]] [1]
    [Style [[Nesting; Atom 1]] [2] [Style [[Atom 4; Comb Descendant; Nesting]] [5] []];
     Style [[Atom 2; Comb Descendant; Nesting]] [3] [];
     Style [[Is [[Nesting]; [Atom 3]]; Comb Child; Nesting]] [4] [];
     Style [[Nesting; Local 1]] [6] []]].
(** [.u { color; .b & { } &:hover, &.c { } } .k:is(.u, .u2) { } .u, .k { }], with [.u] and [.u2] unused. *)
Definition unused : list nrule :=
  [Style [[Atom 0]] [1] [Style [[Atom 2; Comb Descendant; Nesting]] [2] []; Cond 3 [Style [[Nesting; Atom 4]; [Nesting; Atom 5]] [3] []]; Decls [4]];
   Style [[Atom 6; Is [[Atom 0]; [Atom 1; Atom 4]]]] [5] [];
   Style [[Atom 0]; [Atom 6]] [6] [Style [[Nesting; Atom 7]] [7] []]].

(** Fine rules, by computation. *)
Ltac fine_tac :=
  repeat first
    [ progress (cbn; unfold fine_in, fine_selector, fine_relative, leads_single, replaceable)
    | match goal with
      | |- _ \/ _ => first [left; reflexivity | right]
      | |- _ -> _ => intro
      | |- _ /\ _ => split
      | |- Forall _ _ => constructor
      | H : false = true |- _ => discriminate H
      | H : true = false |- _ => discriminate H
      | |- True => exact I
      | |- _ = _ => reflexivity
      end ].
