(** * C59, continued: lists that are read, and the individual properties as functions *)
From Coq Require Import Reals List Lra.
From Verif Require Import MatrixModel MatrixProofs TransformModel TransformSpec TransformProofs TransformMoreProofs.
Import ListNotations.
Local Open Scope R_scope.

(** A value that is read to the end is one of the grammar, and what is read has its effect *)
Theorem C59_list_read_partial : forall (LP LN : Type) (lp_zero : LP) (lp_value : LP -> R -> R) (ln_value : LN -> R), (forall b, lp_value lp_zero b = 0) ->
  forall (width height : R) t ts, parse_list lp_zero t = Some (ts, []) -> Forall (valid ln_value) ts ->
  exists f, css_text lp_value ln_value width height t f /\ same_option f (match ts with [] => None | _ => Some (list_effect lp_value ln_value width height ts) end).
Proof. exact (fun LP LN z lv nv H => list_sound z lv nv H). Qed.
Print Assumptions C59_list_read_partial.
(** [rotate(0) skew(0)] *)
Example C59_list_read_case : parse_list (LP := R) (LN := R) 0 (Some [(FRotate, [ANum 0]); (FSkew, [ANum 0])]) = Some ([Rotate (Deg 0); Skew (Deg 0) (Deg 0)], [])
  /\ Forall (valid (LP := R) (fun x : R => x)) [Rotate (Deg 0); Skew (Deg 0) (Deg 0)].
Proof. split; [|repeat constructor]. cbn. now rewrite (proj2 (eqb_iff 0 0) eq_refl). Qed.

(** [translate], [rotate] and [scale] do the same when they are turned into functions *)
Theorem C59_as_function : forall (LP LN : Type) (lp_zero : LP) (ln_zero : LN) (lp_value : LP -> R -> R) (ln_value : LN -> R), (forall b, lp_value lp_zero b = 0) -> ln_value ln_zero = 0 ->
  forall (width height : R),
  (forall v, same (transform_effect lp_value ln_value width height (translate_transform lp_zero ln_zero v)) (or_nothing (translate_effect lp_value ln_value width height v)))
  /\ (forall v, same (transform_effect lp_value ln_value width height (@rotate_transform LP LN v)) (or_nothing (rotate_effect v)))
  /\ (forall v, same (transform_effect lp_value ln_value width height (@scale_transform LP LN v)) (or_nothing (scale_effect v))).
Proof. exact (fun LP LN z nz lv nv H N w h => conj (translate_same z nz lv nv H N w h) (conj (rotate_same lv nv w h) (scale_same lv nv w h))). Qed.
Print Assumptions C59_as_function.
Example C59_as_function_case : (forall b : R, (fun (x : R) (_ : R) => x) 0 b = 0) /\ (fun x : R => x) 0 = 0. Proof. split; reflexivity. Qed.
