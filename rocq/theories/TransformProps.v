(** * C59: transform functions and the individual transform properties keep their effect *)
From Coq Require Import Reals List Lra.
From Verif Require Import MatrixModel MatrixProofs TransformModel TransformSpec TransformProofs DecomposeProofs.
Import ListNotations.
Local Open Scope R_scope.

(** Every value of [transform], except for those with [perspective(none)], is read to the end.  What is printed for
    it is a value of [transform], and it has the same effect on every point of every box. *)
Theorem C59_kept_partial : forall (LP LN : Type) (lp_zero : LP) (lp_is_zero : LP -> bool) (ln_zero : LN) (ln_is_zero : LN -> bool) (lp_value : LP -> R -> R) (ln_value : LN -> R),
  right_zero lp_value ln_value lp_zero lp_is_zero ln_zero ln_is_zero ->
  forall (width height : R) (minify : bool) t f, css_text lp_value ln_value width height t f -> plain_text t ->
  exists ts, parse_list lp_zero t = Some (ts, [])
    /\ (exists g, css_text lp_value ln_value width height (print_list lp_is_zero ln_is_zero minify ts) g)
    /\ forall g, css_text lp_value ln_value width height (print_list lp_is_zero ln_is_zero minify ts) g -> same_option f g.
Proof. exact (fun LP LN lz li nz ni lv nv H w h m => kept lz li ni lv nv (proj1 H) (proj1 (proj2 H)) (proj2 (proj2 (proj2 H))) w h m). Qed.
Print Assumptions C59_kept_partial.
(** [translate3d(10px, 0, 0) rotate3d(0, 0, 1, 90deg) scale3d(2, 200%, 1)] is printed as
    [translate(10px) rotate(90deg) scale(2)] *)
Example C59_kept_case :
  let l := [(FTranslate3d, [ALp (10, 0); ALp (0, 0); ALn 0]); (FRotate3d, [ANum 0; ANum 0; ANum 1; AAngle (Deg 90)]); (FScale3d, [ANum 2; APct 2; ANum 1])] in
  right_zero px_fraction_value (fun x => x) (0, 0) px_fraction_zero 0 (fun x => eqb x 0)
  /\ (exists f, css_text px_fraction_value (fun x => x) 100 50 (Some l) (Some f)) /\ plain_text (Some l)
  /\ exists ts, parse_list (0, 0) (Some l) = Some (ts, [])
     /\ print_list px_fraction_zero (fun x => eqb x 0) true ts = Some [(FTranslate, [ALp (10, 0)]); (FRotate, [AAngle (Deg 90)]); (FScale, [ANum 2])].
Proof.
  cbv zeta. split; [|split; [|split]].
  - split; [intros b; unfold px_fraction_value; cbn; ring|]. split; [|split; [reflexivity|intros l; apply eqb_iff]]. intros [a c]. unfold px_fraction_zero. cbn.
    destruct (eqb a 0) eqn:E1; [|discriminate]. cbn. intros E2 b. apply eqb_iff in E1 as ->. apply eqb_iff in E2 as ->. unfold px_fraction_value. cbn. ring.
  - eexists. constructor. constructor; [constructor|]. constructor; [repeat constructor|]. constructor; [constructor; constructor|constructor].
  - repeat constructor; discriminate.
  - eexists. split; [reflexivity|]. unfold print_list, print_transform, px_fraction_zero, unitless, angle_zero. cbn [map fst snd num andb]. decide_eqb. reflexivity.
Qed.

(** What is read is a function of the grammar with the effect of the grammar, unless a distance is negative *)
Theorem C59_read_partial : forall (LP LN : Type) (lp_zero : LP) (lp_value : LP -> R -> R) (ln_value : LN -> R),
  (forall b, lp_value lp_zero b = 0) ->
  forall (width height : R) c t, parse_transform lp_zero c = Some t -> valid ln_value t ->
  exists f, css_call lp_value ln_value width height c f /\ same f (transform_effect lp_value ln_value width height t).
Proof. exact (fun LP LN lz lv nv H => read_sound lz lv nv H). Qed.
Print Assumptions C59_read_partial.
(** [skew(0)] *)
Example C59_read_case : parse_transform (LP := R) (LN := R) 0 (FSkew, [ANum 0]) = Some (Skew (Deg 0) (Deg 0)) /\ valid (LP := R) (fun x : R => x) (Skew (Deg 0) (Deg 0)).
Proof. split; [|exact I]. cbn. now rewrite (proj2 (eqb_iff 0 0) eq_refl). Qed.

(** Lists of functions that were not read from text keep their effect as well *)
Theorem C59_printed : forall (LP LN : Type) (lp_zero : LP) (lp_is_zero : LP -> bool) (ln_zero : LN) (ln_is_zero : LN -> bool) (lp_value : LP -> R -> R) (ln_value : LN -> R),
  right_zero lp_value ln_value lp_zero lp_is_zero ln_zero ln_is_zero ->
  forall (width height : R) (minify : bool) ts, Forall (valid ln_value) ts ->
  (exists g, css_text lp_value ln_value width height (print_list lp_is_zero ln_is_zero minify ts) g)
  /\ forall g, css_text lp_value ln_value width height (print_list lp_is_zero ln_is_zero minify ts) g ->
     match ts with [] => g = None | _ => exists h, g = Some h /\ same h (list_effect lp_value ln_value width height ts) end.
Proof. exact (fun LP LN lz li nz ni lv nv H w h m => printed li ni lv nv (proj1 (proj2 H)) (proj2 (proj2 (proj2 H))) w h m). Qed.
Print Assumptions C59_printed.
(** [rotateZ(1turn) scale(50%, 1)] is printed as [rotate(1turn) scaleX(.5)] *)
Example C59_printed_case : Forall (valid (LP := R) (fun x : R => x)) [RotateZ (Turn 1); Scale (Perc (1 / 2)) (Num 1)]
  /\ print_list (fun x => eqb x 0) (fun x => eqb x 0) true [RotateZ (Turn 1); Scale (Perc (1 / 2)) (Num 1)] = Some [(FRotate, [AAngle (Turn 1)]); (FScaleX, [ANum (1 / 2)])].
Proof. split; [repeat constructor|]. unfold print_list, print_transform, unitless, angle_zero. cbn [map num andb]. decide_eqb. reflexivity. Qed.

(** The same for [translate], [rotate] and [scale] *)
Theorem C59_translate : forall (LP LN : Type) (lp_zero : LP) (lp_is_zero : LP -> bool) (ln_zero : LN) (ln_is_zero : LN -> bool) (lp_value : LP -> R -> R) (ln_value : LN -> R),
  right_zero lp_value ln_value lp_zero lp_is_zero ln_zero ln_is_zero ->
  forall (width height : R) l f, css_translate lp_value ln_value width height l f ->
  exists v, parse_translate lp_zero ln_zero l = Some (v, [])
    /\ (exists g, css_translate lp_value ln_value width height (print_translate lp_is_zero ln_is_zero v) g)
    /\ forall g, css_translate lp_value ln_value width height (print_translate lp_is_zero ln_is_zero v) g -> same_option f g.
Proof. exact (fun LP LN lz li nz ni lv nv H => translate_kept lz li nz ni lv nv (proj1 H) (proj1 (proj2 H)) (proj1 (proj2 (proj2 H))) (proj2 (proj2 (proj2 H)))). Qed.
Print Assumptions C59_translate.
(** [1px 0px 0px] is printed as [1px] *)
Example C59_translate_case : (exists f, css_translate (fun (x : R) (_ : R) => x) (fun x : R => x) 0 0 [KArg (ALp 1); KArg (ALp 0); KArg (ALn 0)] (Some f))
  /\ print_translate (fun x => eqb x 0) (fun x => eqb x 0) (TXYZ 1 0 0) = [KArg (ALp 1)].
Proof. split; [eexists; constructor|]. unfold print_translate. now decide_eqb. Qed.
Theorem C59_rotate : forall (LP LN : Type) l f, css_rotate l f ->
  exists v, @parse_rotate LP LN l = Some (v, []) /\ (exists g, css_rotate (@print_rotate LP LN v) g) /\ forall g, css_rotate (@print_rotate LP LN v) g -> same_option f g.
Proof. exact (@rotate_kept). Qed.
Print Assumptions C59_rotate.
(** [0 0 -2 45deg] is printed as [-45deg] *)
Example C59_rotate_case : (exists f, css_rotate (LP := R) (LN := R) [KArg (ANum 0); KArg (ANum 0); KArg (ANum (-2)); KArg (AAngle (Deg 45))] (Some f))
  /\ @print_rotate R R (RXYZ 0 0 (-2) (Deg 45)) = [KArg (AAngle (Deg (45 * -1)))].
Proof.
  split; [eexists; apply (CRAxis [KArg (ANum 0); KArg (ANum 0); KArg (ANum (-2))]); constructor|]. unfold print_rotate. cbv zeta. decide_eqb. decide_ltb. reflexivity.
Qed.
Theorem C59_scale : forall (LP LN : Type) l f, css_scale l f ->
  exists v, @parse_scale LP LN l = Some (v, []) /\ (exists g, css_scale (@print_scale LP LN v) g) /\ forall g, css_scale (@print_scale LP LN v) g -> same_option f g.
Proof. exact (@scale_kept). Qed.
Print Assumptions C59_scale.
(** [2 2 1] is printed as [2] *)
Example C59_scale_case : (exists f, css_scale (LP := R) (LN := R) [KArg (ANum 2); KArg (ANum 2); KArg (APct 1)] (Some f)) /\ @print_scale R R (SXYZ (Num 2) (Num 2) (Perc 1)) = [KArg (ANum 2)].
Proof. split; [eexists; constructor; constructor|]. unfold print_scale. cbn [number_eqb num print_number]. now decide_eqb. Qed.

(** [perspective(none)] is a function without effect, but it is not read. *)
Theorem C59_perspective_none_refuted : exists c : call R R,
  css_call (fun x _ => x) (fun x => x) 0 0 c (fun p => p) /\ parse_transform 0 c = None.
Proof. exists (FPerspective, [ANone]). split; [constructor|reflexivity]. Qed.
Print Assumptions C59_perspective_none_refuted.
(** [perspective(-1px)] is not a function, but it is read. *)
Theorem C59_negative_distance_refuted : exists (c : call R R) t,
  parse_transform 0 c = Some t /\ forall f, ~ css_call (fun x _ => x) (fun x => x) 0 0 c f.
Proof. exists (FPerspective, [ALn (-1)]), (Perspective (-1)). split; [reflexivity|]. intros f H. inversion H. lra. Qed.
Print Assumptions C59_negative_distance_refuted.
