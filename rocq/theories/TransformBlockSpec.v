(** * What a block with transform properties means *)
From Coq Require Import List Bool PeanoNat.
From Verif Require Import PrefixModel TransformBlockModel.
Import ListNotations.

Section Spec.
Context {T V U : Type}.
Notation decl := (decl T V U).
(** What a declaration gives [transform] with the prefix [p]; the last declaration wins *)
Inductive cell := CList (l : list T) | CRaw (u : U).
Definition gives (p : pfx) (d : decl) : option cell :=
  match d with
  | Transform l s => if has s p then Some (CList l) else None
  | Unparsed None u s => if has s p then Some (CRaw u) else None
  | _ => None
  end.
Definition used (p : pfx) (l : list decl) : option cell := fold_left (fun o d => match gives p d with Some c => Some c | None => o end) l None.
(** The same for the individual properties *)
Inductive icell := IVal (v : V) | IRaw (u : U).
Definition igives (w : which) (d : decl) : option icell :=
  match d with
  | Individual w' v => if which_eqb w' w then Some (IVal v) else None
  | Unparsed (Some w') u _ => if which_eqb w' w then Some (IRaw u) else None
  | _ => None
  end.
Definition iused (w : which) (l : list decl) : option icell := fold_left (fun o d => match igives w d with Some c => Some c | None => o end) l None.
(** The other declarations *)
Definition others (l : list decl) : list nat := flat_map (fun d => match d with Other n => [n] | _ => [] end) l.

Definition no_transform (d : decl) : Prop := match d with Transform _ _ | Unparsed None _ _ => False | _ => True end.
Definition no_individual (d : decl) : Prop := match d with Individual _ _ => False | _ => True end.
(** [transform] without a prefix *)
Definition unprefixed (d : decl) : Prop := match d with Transform _ s | Unparsed None _ s => s = single NoPrefix | _ => True end.
(** As it was written: with one prefix *)
Definition written (d : decl) : Prop := match d with Transform _ s | Unparsed None _ s => exists p, s = single p | _ => True end.
(** A prefix is not given another value once a different prefix has the same value *)
Definition steady (l : list decl) : Prop :=
  forall l1 v p l2, l = l1 ++ Transform v (single p) :: l2 ->
    forall w, used p l1 = Some (CList w) -> w <> v -> forall q, q <> p -> used q l1 <> Some (CList w).

(** ** The effect of the block: [translate], [rotate], [scale], then the functions of [transform], the last
    applied first (CSS Transforms 2, section 3.1).  [None]: nothing is transformed. *)
Variable E : Type.
Variable then_ : E -> E -> E.
Variable unit : E.
Variable function : T -> E.
Variable individual : V -> option E.
Definition functions (l : list T) : E := fold_right (fun t e => then_ (function t) e) unit l.
Definition join (a b : option E) : option E := match a, b with Some x, Some y => Some (then_ x y) | Some x, None => Some x | None, o => o end.
Definition transform_part (o : option cell) : option E := match o with Some (CList (t :: l)) => Some (functions (t :: l)) | _ => None end.
Definition individual_part (o : option icell) : option E := match o with Some (IVal v) => individual v | _ => None end.
Definition total (l : list decl) : option E :=
  join (individual_part (iused WTranslate l)) (join (individual_part (iused WRotate l)) (join (individual_part (iused WScale l)) (transform_part (used NoPrefix l)))).
(** An individual property that may be missing *)
Definition opt (w : which) (o : option V) : list decl := match o with Some v => [Individual w v] | None => [] end.
(** A value other than [none] whose effect is that of its function, and commutes with the list [l] *)
Variable to_transform : V -> T.
Definition proper (l : list T) (o : option V) : Prop :=
  match o with
  | Some v => individual v = Some (function (to_transform v)) /\ then_ (functions l) (function (to_transform v)) = then_ (function (to_transform v)) (functions l)
  | None => True
  end.
End Spec.

(** For the examples *)
Definition nleq (a b : list nat) : bool := if list_eq_dec Nat.eq_dec a b then true else false.
Definition no_targets : targets := Targets false false None.
Definition safari : targets := Targets false false (Some (fun _ => PSet true false false false true)).
