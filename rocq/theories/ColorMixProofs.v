(** * Proofs about [color-mix()] *)
From Coq Require Import Reals ZArith Bool List String Lra Lia.
From Verif Require Import MatrixModel MatrixProofs ColorSpaceModel ColorSpaceSpec ColorSpaceProofs ColorConvertProofs ColorMixModel ColorMixSpec.
Import ListNotations.
Local Open Scope R_scope.

(** ** Angles *)
Lemma floor_bounds x : floor x <= x < floor x + 1.
Proof. unfold floor. destruct (base_Int_part x). lra. Qed.
Lemma trunc_int x : exists k, trunc x = IZR k.
Proof.
  unfold trunc, floor. destruct (ltb x 0); [|eexists; reflexivity].
  exists (- Int_part (- x))%Z. rewrite opp_IZR. reflexivity.
Qed.
Lemma trunc_nonneg x : 0 <= x -> trunc x = floor x.
Proof. intros H. unfold trunc. destruct (ltb x 0) eqn:E; [apply ltb_iff in E; lra | reflexivity]. Qed.
Lemma same_angle_refl a : same_angle a a.
Proof. exists 0%Z. lra. Qed.
Lemma same_angle_sym a b : same_angle a b -> same_angle b a.
Proof. intros [k ->]. exists (- k)%Z. rewrite opp_IZR. lra. Qed.
Lemma same_angle_trans a b c : same_angle a b -> same_angle b c -> same_angle a c.
Proof. intros [k ->] [j ->]. exists (k + j)%Z. rewrite plus_IZR. lra. Qed.
Lemma frem_angle x : same_angle (frem x 360) x.
Proof. unfold frem. destruct (trunc_int (x / 360)) as [k ->]. exists (- k)%Z. rewrite opp_IZR. lra. Qed.
Lemma frem_lower x : -360 < frem x 360.
Proof.
  unfold frem, trunc. destruct (ltb (x / 360) 0) eqn:E.
  - destruct (floor_bounds (- (x / 360))). apply ltb_iff in E. lra.
  - apply ltb_false in E. destruct (floor_bounds (x / 360)). lra.
Qed.
Lemma frem_nonneg x : 0 <= x -> 0 <= frem x 360 < 360.
Proof. intros H. unfold frem. rewrite trunc_nonneg by lra. destruct (floor_bounds (x / 360)). lra. Qed.
Lemma normal_spec a : same_angle a (normal a) /\ 0 <= normal a < 360.
Proof.
  unfold normal. pose proof (frem_lower a). split.
  - apply same_angle_sym. eapply same_angle_trans; [apply frem_angle|].
    eapply same_angle_trans; [|apply (frem_angle a)]. exists 1%Z. lra.
  - apply frem_nonneg. lra.
Qed.

Ltac cases_ltb :=
  repeat match goal with
         | |- context [ltb ?x ?y] => let E := fresh "E" in destruct (ltb x y) eqn:E; [apply ltb_iff in E | apply ltb_false in E]
         end.
Lemma hue_fixed m h k : let '(h', k') := interpolate_hue m h k in fixed_up m h k h' k'.
Proof.
  destruct (normal_spec h) as [Ah Bh], (normal_spec k) as [Ak Bk].
  destruct m; cbn [interpolate_hue fixed_up]; try (split; reflexivity);
    cases_ltb; cbn [andb]; try (exists (normal h), (normal k); repeat split; auto; try lra; cbn [arc] in *; intros; try lra).
  all: try (right; rewrite Rabs_left1 by lra; lra).
  all: try (right; rewrite Rabs_pos_eq by lra; lra).
  all: try match goal with H : _ = 0 \/ _ |- _ => destruct H as [|H]; [lra|]; revert H; unfold Rabs; destruct (Rcase_abs _); lra end.
  all: destruct (Req_dec (normal k - normal h) 0); [left; assumption|right; unfold Rabs; destruct (Rcase_abs _); lra].
Qed.

(** ** Mixing components *)
Lemma share_left p q : 0 < p + q -> share p q (p / (p + q)).
Proof. intros H. unfold share. field. lra. Qed.
Lemma mean_some p q x y : mean p q (Some x) (Some y) = Some (x * p + y * q).
Proof. reflexivity. Qed.
Lemma fill_taken x y : taken x y (match fill x y, fill y x with Some a, Some b => Some (a, b) | _, _ => None end).
Proof. destruct x, y; constructor. Qed.
Lemma fill_twice x y : fill y (fill x y) = fill y x.
Proof. destruct x, y; reflexivity. Qed.

(** A component that is multiplied by the alphas, which are there *)
Lemma part_blended s1 s2 a1 a2 x y :
  blended s1 s2 a1 a2 x y (ndiv (mean s1 s2 (nmul (fill x y) (Some a1)) (nmul (fill y x) (Some a2))) (Some (a1 * s1 + a2 * s2))).
Proof.
  destruct (Req_dec (a1 * s1 + a2 * s2) 0) as [Z|N]; [apply BlendedClear; exact Z|].
  pose proof (fill_taken x y) as T. destruct x as [x|], y as [y|]; cbn -[Rmult] in *.
  - unfold ndiv. destruct (eqb _ 0) eqn:E; [apply eqb_iff in E; lra|]. eapply Blended; [exact T|]. field. lra.
  - unfold ndiv. destruct (eqb _ 0) eqn:E; [apply eqb_iff in E; lra|]. eapply Blended; [exact T|]. field. lra.
  - unfold ndiv. destruct (eqb _ 0) eqn:E; [apply eqb_iff in E; lra|]. eapply Blended; [exact T|]. field. lra.
  - apply BlendedNone.
Qed.
(** The same without alpha *)
Lemma part_plain s1 s2 x y : s1 + s2 = 1 -> blended s1 s2 1 1 x y (mean s1 s2 (fill x y) (fill y x)).
Proof.
  intros S. pose proof (fill_taken x y) as T. destruct x as [x|], y as [y|]; cbn -[Rmult] in *; try apply BlendedNone.
  all: eapply Blended; [exact T|]; replace (1 * s1 + 1 * s2) with 1 by lra; lra.
Qed.
Lemma hue_turned m s1 s2 x y :
  turned m s1 s2 x y (option_map (fun h => frem h 360) (let '(a, b) := interpolate_num m (fill x y) (fill y x) in mean s1 s2 a b)).
Proof.
  pose proof (fill_taken x y) as T.
  destruct x as [x|], y as [y|]; cbn [fill interpolate_num] in *.
  4: { destruct m; cbn; apply TurnedNone. }
  all: match goal with |- context [interpolate_hue ?mm ?h ?k] => pose proof (hue_fixed mm h k) as F; destruct (interpolate_hue mm h k) as [h' k'] end;
    cbn -[Rmult Rplus frem]; (eapply Turned; [exact T | exact F | apply frem_angle]).
Qed.
Lemma clear_blended s1 s2 a1 a2 x y v : a1 * s1 + a2 * s2 = 0 -> blended s1 s2 a1 a2 x y v.
Proof. apply BlendedClear. Qed.

Lemma mix_mixed s m p q x y : 0 < p + q -> mixed s m p q x y (mix_comps s m p q x y).
Proof.
  intros H. unfold mixed. set (s1 := p / (p + q)). set (s2 := q / (p + q)).
  assert (S1 : share p q s1) by (unfold share, s1; field; lra).
  assert (S2 : share q p s2) by (unfold share, s2; field; lra).
  assert (S : s1 + s2 = 1) by (unfold s1, s2; field; lra).
  assert (E : (if eqb (p + q) 1 then (p, q, p + q) else (p / (p + q), q / (p + q), if ltb 1 (p + q) then 1 else p + q)) = (s1, s2, Rmin 1 (p + q))).
  { unfold s1, s2. destruct (eqb (p + q) 1) eqn:D.
    - apply eqb_iff in D. rewrite D, Rmin_left by lra. f_equal. f_equal; field.
    - unfold Rmin. destruct (ltb 1 (p + q)) eqn:L; [apply ltb_iff in L | apply ltb_false in L]; destruct (Rle_dec 1 (p + q)); try reflexivity; try lra.
      f_equal. lra. }
  unfold mix_comps. rewrite E. clear E.
  unfold fill_missing. cbn [c1 c2 c3 alpha]. rewrite !fill_twice.
  pose proof (fill_taken (alpha x) (alpha y)) as TA.
  exists s1, s2. destruct (fill (alpha x) (alpha y)) as [a1|] eqn:F1.
  - assert (exists a2, fill (alpha y) (alpha x) = Some a2) as [a2 F2] by (destruct (alpha x), (alpha y); cbn in *; try discriminate; eauto).
    rewrite F2 in *. exists a1, a2. split; [exact S1|]. split; [exact S2|].
    destruct s; cbn [adjust_hue kind_of c1 c2 c3 alpha];
      try (match goal with |- context [interpolate_num m ?a ?b] =>
             pose proof (hue_turned m s1 s2) as HT; destruct (interpolate_num m a b) as [h k] eqn:HI end);
      unfold premultiply; cbn [c1 c2 c3 alpha]; unfold interpolate_comps; cbn [c1 c2 c3 alpha]; rewrite mean_some; unfold unpremultiply; cbn [c1 c2 c3 alpha is_zero].
    all: match goal with
         | |- context [eqb ?v 0] => destruct (eqb v 0) eqn:Z; [apply eqb_iff in Z | apply eqb_false in Z]
         | |- _ => idtac
         end; cbn [c1 c2 c3 alpha nmul lift2].
    all: split; [left; split; [exact TA|]; try reflexivity; f_equal; rewrite Z; lra|].
    all: repeat split; try apply part_blended; try (apply clear_blended; exact Z).
    all: match goal with |- turned _ _ _ ?u ?v _ => specialize (HT u v); rewrite HI in HT; exact HT end.
  - assert (fill (alpha y) (alpha x) = None) as F2 by (destruct (alpha x), (alpha y); cbn in *; try discriminate; reflexivity).
    rewrite F2 in *. exists 1, 1. split; [exact S1|]. split; [exact S2|].
    destruct s; cbn [adjust_hue kind_of c1 c2 c3 alpha];
      try (match goal with |- context [interpolate_num m ?a ?b] =>
             pose proof (hue_turned m s1 s2) as HT; destruct (interpolate_num m a b) as [h k] eqn:HI end);
      unfold premultiply; cbn [c1 c2 c3 alpha]; unfold interpolate_comps; cbn [c1 c2 c3 alpha];
      change (mean s1 s2 None None) with (@None R); unfold unpremultiply; cbn [c1 c2 c3 alpha].
    all: split; [right; repeat split; exact TA|].
    all: repeat split; try (apply part_plain; exact S).
    all: match goal with |- turned _ _ _ ?u ?v _ => specialize (HT u v); rewrite HI in HT; exact HT end.
Qed.

(** ** Operands *)
Lemma nabs_lt_iff x : nabs_lt x f32_epsilon = true <-> near 0 x.
Proof.
  unfold near, f32_epsilon. destruct x as [v|]; cbn [nabs_lt].
  - rewrite ltb_iff. split.
    + intros H. exists v. split; [reflexivity|]. rewrite Rminus_0_r. exact H.
    + intros [w [E H]]. injection E as ->. rewrite Rminus_0_r in H. exact H.
  - split; [discriminate|]. intros [w [E _]]. discriminate.
Qed.
Lemma nabs_lt_100 x : nabs_lt (nadd x (Some (-100))) f32_epsilon = true <-> near 100 x.
Proof.
  rewrite nabs_lt_iff. unfold near. destruct x as [v|]; cbn [nadd lift2].
  - split; intros [w [E H]]; injection E as <-.
    + exists v. split; [reflexivity|]. replace (v - 100) with (v + -100 - 0) by lra. exact H.
    + exists (v + -100). split; [reflexivity|]. replace (v + -100 - 0) with (v - 100) by lra. exact H.
  - split; intros [w [E _]]; discriminate.
Qed.
Lemma not_true b P : (b = true <-> P) -> b = false -> ~ P.
Proof. intros H E Q. apply H in Q. congruence. Qed.
Ltac near_cases :=
  repeat match goal with
         | |- context [nabs_lt (nadd ?x (Some (-100))) f32_epsilon] =>
             let E := fresh "E" in destruct (nabs_lt (nadd x (Some (-100))) f32_epsilon) eqn:E;
             [apply nabs_lt_100 in E | apply (not_true _ _ (nabs_lt_100 _)) in E]; cbn [c1 c2 c3 alpha orb]
         | |- context [nabs_lt ?x f32_epsilon] =>
             let E := fresh "E" in destruct (nabs_lt x f32_epsilon) eqn:E;
             [apply nabs_lt_iff in E | apply (not_true _ _ (nabs_lt_iff _)) in E]; cbn [c1 c2 c3 alpha orb]
         end.
Lemma adjust_powerless_spec s c : mixing s -> powerless s c (adjust_powerless s c).
Proof.
  assert (SUM : nadd (c2 c) (c3 c) = sum_of (c2 c) (c3 c)) by (destruct (c2 c), (c3 c); reflexivity).
  intros M. destruct s; cbn in M; try contradiction; unfold adjust_powerless; rewrite ?SUM; near_cases;
    first [ solve [apply Rgb; cbn; auto] | solve [apply LabBlack; cbn; auto] | solve [apply LabOther; cbn; auto] | solve [apply LchGrey; cbn; auto]
          | solve [apply LchOther; cbn; auto] | solve [apply HslExtreme; auto] | solve [apply HslGrey; auto] | solve [apply HslOther; auto]
          | solve [apply HwbGrey; auto] | solve [apply HwbOther; auto] ].
Qed.

Lemma within_iff lo hi x : within lo hi (Some x) = true <-> lo <= x <= hi.
Proof.
  cbn [within]. rewrite andb_true_iff, !negb_true_iff. split.
  - intros [A B]. apply ltb_false in A, B. lra.
  - intros [A B]. split; apply ltb_false; lra.
Qed.
Lemma byte_unit r : (0 <= r <= 255)%Z -> 0 <= IZR r / 255 <= 1.
Proof. intros [A B]. apply IZR_le in A, B. lra. Qed.

Lemma powf_0 y : powf 0 y = 0.
Proof. unfold powf. destruct (eqb 0 0) eqn:E; [reflexivity|]. apply eqb_false in E. lra. Qed.
Lemma powf_pos x y : 0 < x -> powf x y = exp (y * ln x).
Proof. intros H. unfold powf. destruct (eqb x 0) eqn:E; [apply eqb_iff in E; lra | reflexivity]. Qed.
Lemma powf_unit x y : 0 <= x <= 1 -> 0 < y -> 0 <= powf x y <= 1.
Proof.
  intros [A B] Y. destruct (Req_dec x 0) as [->|N]; [rewrite powf_0; lra|]. rewrite powf_pos by lra.
  split; [left; apply exp_pos|]. rewrite <- exp_0.
  assert (ln x <= 0).
  { destruct (Req_dec x 1) as [->|]; [rewrite ln_1; lra|]. rewrite <- ln_1. left. apply ln_increasing; lra. }
  assert (y * ln x <= 0) by nra. destruct (Req_dec (y * ln x) 0) as [->|]; [lra|]. left. apply exp_increasing. lra.
Qed.
Lemma lin_srgb_unit x : 0 <= x <= 1 -> 0 <= lin_srgb x <= 1.
Proof.
  intros H. unfold lin_srgb, sign. rewrite Rabs_pos_eq by lra.
  destruct (ltb x 0.04045) eqn:E; [apply ltb_iff in E; lra|]. apply ltb_false in E.
  destruct (ltb x 0) eqn:Z; [apply ltb_iff in Z; lra|]. rewrite Rmult_1_l. apply powf_unit; lra.
Qed.
Definition within_unit (t : triple) : Prop := let '(r, g, b) := t in 0 <= r <= 1 /\ 0 <= g <= 1 /\ 0 <= b <= 1.
Lemma full_in_gamut t a : within_unit t -> in_gamut SRGB (full t a) = true.
Proof.
  destruct t as [[r g] b]. intros [A [B C]]. cbn [in_gamut full c1 c2 c3].
  rewrite !(proj2 (within_iff _ _ _)); auto.
Qed.
Lemma resolve_srgb_full t a : within_unit t -> resolve_srgb (full t a) = full t a.
Proof.
  intros H. unfold resolve_srgb. assert (E : resolve_missing (full t a) = full t a) by (destruct t as [[? ?] ?]; reflexivity).
  rewrite E, full_in_gamut by exact H. reflexivity.
Qed.
Ltac lra_or := repeat match goal with H : _ \/ _ |- _ => destruct H end; lra.
Lemma max3 r g b : let m := Rmax (Rmax r g) b in r <= m /\ g <= m /\ b <= m /\ (m = r \/ m = g \/ m = b).
Proof. cbn zeta. unfold Rmax. repeat destruct (Rle_dec _ _); lra. Qed.
Lemma min3 r g b : let m := Rmin (Rmin r g) b in m <= r /\ m <= g /\ m <= b /\ (m = r \/ m = g \/ m = b).
Proof. cbn zeta. unfold Rmin. repeat destruct (Rle_dec _ _); lra. Qed.
Lemma hwb_in_gamut t a : within_unit t -> in_gamut HWB (hwb_of_srgb (full t a)) = true.
Proof.
  intros H. unfold hwb_of_srgb. rewrite resolve_srgb_full by exact H. destruct t as [[r g] b].
  cbn -[within Rmax Rmin Rmult Rminus]. destruct H as [A [B C]].
  destruct (max3 r g b) as [M1 [M2 [M3 M4]]], (min3 r g b) as [N1 [N2 [N3 N4]]].
  assert (U : Rmax (Rmax r g) b <= 1 /\ 0 <= Rmin (Rmin r g) b) by lra_or.
  rewrite !(proj2 (within_iff _ _ _)); [reflexivity| |]; lra.
Qed.
Lemma hsl_in_gamut t a : within_unit t -> in_gamut HSL (hsl_of_srgb (full t a)) = true.
Proof.
  intros H. unfold hsl_of_srgb. rewrite resolve_srgb_full by exact H. destruct t as [[r g] b].
  cbn -[within Rmax Rmin Rmult Rminus Rdiv Rplus]. destruct H as [A [B C]].
  destruct (max3 r g b) as [M1 [M2 [M3 M4]]], (min3 r g b) as [N1 [N2 [N3 N4]]].
  assert (U : Rmax (Rmax r g) b <= 1 /\ 0 <= Rmin (Rmin r g) b) by lra_or.
  set (mx := Rmax (Rmax r g) b) in *. set (mn := Rmin (Rmin r g) b) in *.
  rewrite !(proj2 (within_iff _ _ _)); [reflexivity|lra|].
  destruct (eqb (mx - mn) 0) eqn:D; [lra|]. apply eqb_false in D.
  destruct (eqb ((mn + mx) / 2) 0) eqn:L0; [cbn [orb]; lra|]. apply eqb_false in L0.
  destruct (eqb ((mn + mx) / 2) 1) eqn:L1; [cbn [orb]; lra|]. apply eqb_false in L1. cbn [orb].
  assert (P : 0 < Rmin ((mn + mx) / 2) (1 - (mn + mx) / 2)) by (apply Rmin_glb_lt; lra).
  assert (Q : mx - (mn + mx) / 2 <= Rmin ((mn + mx) / 2) (1 - (mn + mx) / 2)) by (apply Rmin_glb; lra).
  assert (0 <= (mx - (mn + mx) / 2) / Rmin ((mn + mx) / 2) (1 - (mn + mx) / 2) <= 1).
  { split; [apply Rmult_le_pos; [lra | left; apply Rinv_0_lt_compat; exact P]|]. apply Rmult_le_reg_r with (1 := P). unfold Rdiv at 1. rewrite Rmult_assoc, Rinv_l by lra. lra. }
  lra.
Qed.
Lemma bytes_in_gamut s r g b a :
  mixing s -> s <> SRGB -> (0 <= r <= 255 /\ 0 <= g <= 255 /\ 0 <= b <= 255 /\ 0 <= a <= 255)%Z -> in_gamut s (convert SRGB s (of_bytes r g b a)) = true.
Proof.
  intros M N [A [B [C _]]]. apply byte_unit in A, B, C.
  assert (W : within_unit (IZR r / 255, IZR g / 255, IZR b / 255)) by (repeat split; lra).
  unfold convert, of_bytes. destruct (space_eq_dec SRGB s); [congruence|].
  destruct s; cbn in M; try contradiction; try reflexivity; cbn [direct].
  - cbn -[within lin_srgb Rdiv]. rewrite !(proj2 (within_iff _ _ _)); auto using lin_srgb_unit.
  - apply hsl_in_gamut. exact W.
  - apply hwb_in_gamut. exact W.
Qed.
Lemma brought_spec s c : brought s c (if in_gamut s c then c else map_gamut s c).
Proof.
  destruct (in_gamut s c) eqn:G; [apply BroughtWithin; exact G|].
  assert (N : s <> OKLCH) by (intros ->; discriminate G). destruct (map_gamut_mapped s c N) as [l [k [h [E H]]]]. apply (BroughtOutside _ _ l k h); assumption.
Qed.
Lemma prepare_operand s c : mixing s -> is_pair c = false -> covered s c -> exists x, try_from s c = Some x /\ operand s c (prepare s c x).
Proof.
  intros M P C. destruct c as [r g b a|t d| |l d|n]; cbn [covered is_pair] in *; try contradiction; try discriminate; eexists; (split; [reflexivity|]).
  - unfold prepare. cbn [own_space]. destruct (space_eq_dec SRGB s) as [<-|N].
    + unfold convert. destruct (space_eq_dec SRGB SRGB); [|congruence]. unfold of_bytes. apply OperandBytes. reflexivity.
    + rewrite bytes_in_gamut by auto. apply OperandBytesOther; [congruence|]. apply adjust_powerless_spec. exact M.
  - unfold prepare. assert (D : t = RGB \/ own_space (Plain t d) = Some t) by (destruct t; auto).
    destruct D as [->|D].
    + cbn [own_space]. destruct (space_eq_dec SRGB s) as [<-|N].
      * apply OperandRGB. reflexivity.
      * apply (OperandOther _ _ _ (if in_gamut s (convert RGB s d) then convert RGB s d else map_gamut s (convert RGB s d)));
          [intros <-; cbn in M; contradiction | intros [_ E]; congruence | apply brought_spec | apply adjust_powerless_spec; exact M].
    + rewrite D. destruct (space_eq_dec t s) as [<-|N].
      * unfold convert. destruct (space_eq_dec t t); [|congruence]. apply OperandOwn.
      * assert (NR : ~ (t = RGB /\ s = SRGB)) by (intros [-> _]; discriminate).
        apply (OperandOther _ _ _ (if in_gamut s (convert t s d) then convert t s d else map_gamut s (convert t s d))); auto using adjust_powerless_spec, brought_spec.
Qed.

(** ** The result *)
Lemma Int_part_IZR n : Int_part (IZR n) = n.
Proof.
  destruct (base_Int_part (IZR n)) as [A B]. apply le_IZR in A.
  assert (IZR n < IZR (Int_part (IZR n) + 1)) by (rewrite plus_IZR; lra). apply lt_IZR in H. lia.
Qed.
Lemma clamp_unit_nearest v : nearest (clamp_unit v) v.
Proof.
  unfold nearest, clamp_unit, clamp_floor_256, round.
  destruct (ltb (v * 255) 0) eqn:E.
  { apply ltb_iff in E. unfold floor. destruct (base_Int_part (- (v * 255) + 1 / 2)) as [F G]. set (k := Int_part (- (v * 255) + 1 / 2)) in *.
    assert (K0 : (0 <= k)%Z) by (assert (IZR (-1) < IZR k) by lra; apply lt_IZR in H; lia). apply IZR_le in K0.
    rewrite (Rmax_right _ 0), Rmin_left by lra. rewrite Int_part_IZR. split; [lia|]. split; [lra|]. split; [reflexivity|lra]. }
  assert (E' : 0 <= v) by (assert (~ v * 255 < 0) by (intros H; apply ltb_iff in H; congruence); lra). unfold floor.
  destruct (base_Int_part (v * 255 + 1 / 2)) as [F G]. set (k := Int_part (v * 255 + 1 / 2)) in *.
  assert (K0 : (0 <= k)%Z) by (assert (IZR (-1) < IZR k) by lra; apply lt_IZR in H; lia).
  destruct (Z_le_gt_dec k 255) as [K1|K1].
  - apply IZR_le in K0. pose proof (IZR_le _ _ K1) as K1'. rewrite Rmax_left, Rmin_left by lra. rewrite Int_part_IZR. apply le_IZR in K0.
    split; [lia|]. split; [intros _; unfold Rabs; destruct (Rcase_abs _); lra|]. split; [lra|]. intros V.
    assert (IZR 254 < IZR k) by lra. apply lt_IZR in H. lia.
  - assert (K2 : (256 <= k)%Z) by lia. apply IZR_le in K0, K2. rewrite Rmax_left, Rmin_right by lra. rewrite Int_part_IZR.
    split; [lia|]. split; [intros V; lra|]. split; [lra|reflexivity].
Qed.
Lemma value_resolve x : value x (resolve_num x).
Proof. destruct x; reflexivity. Qed.
Lemma to_bytes_given c : in_bytes c (to_bytes c).
Proof.
  assert (K : known c (resolve_missing c)).
  { exists (resolve_num (c1 c)), (resolve_num (c2 c)), (resolve_num (c3 c)), (resolve_num (alpha c)). repeat split; apply value_resolve. }
  assert (B : brought SRGB (resolve_missing c) (resolve_srgb c)) by exact (brought_spec SRGB (resolve_missing c)).
  eexists _, _, _, _, _, _, _, _, _, _. split; [exact K|]. split; [exact B|]. unfold to_bytes. cbn [resolved].
  do 4 (split; [apply value_resolve|]). split; [reflexivity|]. repeat split; apply clamp_unit_nearest.
Qed.
Lemma into_css_given s r : mixing s -> given s r (into_css s r).
Proof. intros M. destruct s; cbn in M; try contradiction; cbn [given into_css]; try reflexivity; apply to_bytes_given. Qed.

Lemma plain_correct s m p q a b :
  mixing s -> 0 < p + q -> is_pair a = false -> is_pair b = false -> covered s a -> covered s b ->
  exists out, interpolate_plain s m p q a b = Some out /\ is_pair out = false /\ correct_mix s m p q a b out.
Proof.
  intros M H PA PB CA CB. destruct (prepare_operand s a M PA CA) as [x [X OX]], (prepare_operand s b M PB CB) as [y [Y OY]].
  unfold interpolate_plain. rewrite X, Y. eexists. split; [reflexivity|]. split.
  - destruct s; cbn in M; try contradiction; try reflexivity; cbn [into_css]; unfold to_bytes;
      match goal with |- context [resolved ?c] => destruct (resolved c) as [[? ?] ?] end; reflexivity.
  - exists (prepare s a x), (prepare s b y). eexists. split; [exact OX|]. split; [exact OY|]. split; [apply mix_mixed; exact H|].
    apply into_css_given. exact M.
Qed.
Lemma covered_light s c : covered s c -> covered s (light c).
Proof. destruct c; cbn; auto. intros [A _]. exact A. Qed.
Lemma covered_dark s c : covered s c -> covered s (dark c).
Proof. destruct c; cbn; auto. intros [_ A]. exact A. Qed.
Lemma covered_known s c : covered s c -> is_unknown c = false.
Proof. destruct c; cbn; auto; contradiction. Qed.
Lemma used_plain k c : is_pair c = false -> used k c = c.
Proof. destruct c; try reflexivity. discriminate. Qed.
Lemma used_part (k : bool) c : used k c = used k (if k then dark c else light c).
Proof. destruct c, k; reflexivity. Qed.
Lemma depth_light c n : (depth c <= S n)%nat -> (depth (light c) <= n)%nat \/ (is_pair c = false).
Proof. destruct c; cbn; auto. lia. Qed.
Lemma fuel_correct s m p q n : forall a b,
  mixing s -> 0 < p + q -> (depth a <= n)%nat -> (depth b <= n)%nat -> covered s a -> covered s b ->
  exists out, interpolate_fuel n s m p q a b = Some out /\ forall k, correct_mix s m p q (used k a) (used k b) (used k out).
Proof.
  induction n as [|n IH]; intros a b M H DA DB CA CB; cbn [interpolate_fuel];
    rewrite (covered_known _ _ CA), (covered_known _ _ CB); cbn [orb].
  - assert (PA : is_pair a = false) by (destruct a; auto; cbn in DA; lia).
    assert (PB : is_pair b = false) by (destruct b; auto; cbn in DB; lia).
    rewrite PA, PB. cbn [orb]. destruct (plain_correct s m p q a b) as [out [E [PO C]]]; auto.
    exists out. split; [exact E|]. intros k. rewrite !used_plain by assumption. exact C.
  - destruct (is_pair a || is_pair b) eqn:P.
    + assert (LA : (depth (light a) <= n)%nat /\ (depth (dark a) <= n)%nat) by (destruct a; cbn in *; lia).
      assert (LB : (depth (light b) <= n)%nat /\ (depth (dark b) <= n)%nat) by (destruct b; cbn in *; lia).
      destruct (IH (light a) (light b)) as [l [El Cl]]; try tauto; auto using covered_light.
      destruct (IH (dark a) (dark b)) as [d [Ed Cd]]; try tauto; auto using covered_dark.
      rewrite El, Ed. eexists. split; [reflexivity|].
      intros k. rewrite (used_part k a), (used_part k b). destruct k; cbn [used]; auto.
    + apply orb_false_iff in P. destruct P as [PA PB].
      destruct (plain_correct s m p q a b) as [out [E [PO C]]]; auto.
      exists out. split; [exact E|]. intros k. rewrite !used_plain by assumption. exact C.
Qed.
Lemma interpolate_correct s m p q a b :
  mixing s -> 0 < p + q -> covered s a -> covered s b ->
  exists out, interpolate s m p q a b = Some out /\ forall k, correct_mix s m p q (used k a) (used k b) (used k out).
Proof. intros. apply fuel_correct; auto; lia. Qed.
Lemma fuel_unknown s m p q n : forall a b, mentions_unknown a \/ mentions_unknown b -> interpolate_fuel n s m p q a b = None.
Proof.
  induction n as [|n IH]; intros a b U; cbn [interpolate_fuel]; destruct (is_unknown a || is_unknown b) eqn:E; try reflexivity;
    apply orb_false_iff in E; destruct E as [EA EB]; destruct (is_pair a || is_pair b) eqn:P; try reflexivity.
  1, 3: exfalso; apply orb_false_iff in P; destruct P as [PA PB]; destruct a, b; cbn in *; try discriminate; tauto.
  assert (D : (mentions_unknown (light a) \/ mentions_unknown (light b)) \/ (mentions_unknown (dark a) \/ mentions_unknown (dark b))).
  { destruct a, b; cbn in *; try discriminate; tauto. }
  destruct D as [D|D]; rewrite (IH _ _ D); [reflexivity|]. destruct (interpolate_fuel n s m p q (light a) (light b)); reflexivity.
Qed.
Lemma interpolate_unknown s m p q a b : mentions_unknown a \/ mentions_unknown b -> interpolate s m p q a b = None.
Proof. apply fuel_unknown. Qed.

(** ** The text *)
Lemma space_name_in w s : In (w, s) spaces -> space_name w = Some s.
Proof. intros H. cbn in H. repeat destruct H as [H|H]; try contradiction; injection H as <- <-; reflexivity. Qed.
Lemma method_name_in w m : In (w, m) methods -> method_name w = Some m.
Proof. intros H. cbn in H. repeat destruct H as [H|H]; try contradiction; injection H as <- <-; reflexivity. Qed.
Ltac name_cases :=
  repeat match goal with
         | |- context [String.eqb ?w ?k] => destruct (String.eqb_spec w k) as [->|]
         end.
Lemma space_name_sound w s : space_name w = Some s -> In (w, s) spaces.
Proof. unfold space_name. name_cases; try discriminate; intros H; injection H as <-; cbn; tauto. Qed.
Lemma method_name_sound w m : method_name w = Some m -> In (w, m) methods.
Proof. unfold method_name. name_cases; try discriminate; intros H; injection H as <-; cbn; tauto. Qed.
Lemma kind_polar s : is_polar s = true <-> kind_of s <> Rectangular.
Proof. destruct s; cbn; split; congruence. Qed.
Lemma parse_method_text s m lm r : method_text s m lm -> parse_method s (lm ++ Comma :: r) = Some (m, Comma :: r).
Proof.
  intros H. destruct H as [s|s m w K I]; unfold parse_method.
  - destruct (is_polar s); reflexivity.
  - apply kind_polar in K. rewrite K. cbn -[method_name]. rewrite (method_name_in _ _ I). reflexivity.
Qed.
Lemma parse_method_sound s m l r : parse_method s l = Some (m, Comma :: r) -> exists lm, l = lm ++ Comma :: r /\ method_text s m lm.
Proof.
  unfold parse_method. destruct (is_polar s) eqn:P.
  2: { intros H. injection H as <- ->. exists []. split; [reflexivity | constructor]. }
  destruct l as [|[w| |p|c] l]; try (intros H; injection H as <- H; exists []; split; [cbn; congruence | constructor]).
  destruct (method_name w) as [m'|] eqn:N.
  - destruct l as [|[h| |p|c] l]; try discriminate. destruct (String.eqb_spec h "hue") as [->|]; [|discriminate].
    intros H. injection H as -> ->. exists [Word w; Word "hue"]. split; [reflexivity|]. constructor; [apply kind_polar; exact P | apply method_name_sound; exact N].
  - intros H. injection H as <- H. discriminate.
Qed.
Lemma parse_part_text p c l r : part_text p c l -> (forall q, hd_error r <> Some (Percent q)) -> parse_part (l ++ r) = Some (p, c, r).
Proof.
  intros H N. destruct H; cbn; try reflexivity. unfold parse_percent. destruct r as [|[?| |q|?] r]; try reflexivity. destruct (N q). reflexivity.
Qed.
Lemma parse_part_sound p c l r : parse_part l = Some (p, c, r) -> exists lp, l = lp ++ r /\ part_text p c lp.
Proof.
  unfold parse_part, parse_percent. intros H.
  destruct l as [|[w| |q|d] l]; try discriminate.
  - destruct l as [|[w| |q'|d] l]; try discriminate. injection H as <- <- <-. exists [Percent q; Color d]. split; [reflexivity | constructor].
  - destruct l as [|[w| |q|d'] l]; injection H as <- <- <-;
      try (exists [Color d]; split; [reflexivity | constructor]). exists [Color d; Percent q]. split; [reflexivity | constructor].
Qed.
Lemma shares_spec p1 p2 q1 q2 : percentages p1 p2 q1 q2 -> shares p1 p2 = (q1, q2).
Proof. intros H. destruct H; cbn; try reflexivity. f_equal; lra. Qed.
Lemma shares_exist p1 p2 : percentages p1 p2 (fst (shares p1 p2)) (snd (shares p1 p2)).
Proof. destruct p1, p2; cbn; try constructor. replace 0.5 with (1 / 2) by lra. constructor. Qed.
Lemma parse_complete s m p1 a p2 b l q1 q2 :
  mix_text s m p1 a p2 b l -> percentages p1 p2 q1 q2 ->
  parse_color_mix l = if Req_EM_T (q1 + q2) 0 then None else interpolate s m q1 q2 a b.
Proof.
  intros H Q. destruct H as [s w m lm p1 a l1 p2 b l2 W M A B].
  cbn [app parse_color_mix]. cbn [String.eqb Ascii.eqb Bool.eqb]. rewrite (space_name_in _ _ W).
  rewrite (parse_method_text _ _ _ _ M). cbn [parse_comma].
  rewrite (parse_part_text _ _ _ _ A) by discriminate. cbn [parse_comma].
  rewrite <- (app_nil_r l2), (parse_part_text _ _ _ _ B) by discriminate.
  rewrite (shares_spec _ _ _ _ Q). destruct (eqb (q1 + q2) 0) eqn:E.
  - apply eqb_iff in E. destruct (Req_EM_T (q1 + q2) 0); [reflexivity | contradiction].
  - apply eqb_false in E. destruct (Req_EM_T (q1 + q2) 0); [contradiction | reflexivity].
Qed.
Lemma parse_sound l c :
  parse_color_mix l = Some c ->
  exists s m p1 a p2 b q1 q2, mix_text s m p1 a p2 b l /\ percentages p1 p2 q1 q2 /\ q1 + q2 <> 0 /\ interpolate s m q1 q2 a b = Some c.
Proof.
  unfold parse_color_mix. intros H.
  destruct l as [|[i| |?|?] l]; try discriminate. destruct l as [|[w| |?|?] l]; try discriminate.
  destruct (String.eqb_spec i "in") as [->|]; [|discriminate].
  destruct (space_name w) as [s|] eqn:W; [|discriminate]. apply space_name_sound in W.
  destruct (parse_method s l) as [[m l1]|] eqn:M; [|discriminate].
  destruct l1 as [|[?| |?|?] l1]; try discriminate. cbn [parse_comma] in H.
  destruct (parse_part l1) as [[[p1 a] l2]|] eqn:A; [|discriminate].
  destruct l2 as [|[?| |?|?] l2]; try discriminate. cbn [parse_comma] in H.
  destruct (parse_part l2) as [[[p2 b] l3]|] eqn:B; [|discriminate]. destruct l3; [|discriminate].
  pose proof (shares_exist p1 p2) as Q. destruct (shares p1 p2) as [q1 q2]. cbn [fst snd] in Q.
  destruct (eqb (q1 + q2) 0) eqn:E; [discriminate|]. apply eqb_false in E.
  apply parse_method_sound in M. destruct M as [lm [-> M]].
  apply parse_part_sound in A. destruct A as [la [-> A]].
  apply parse_part_sound in B. destruct B as [lb [-> B]]. rewrite app_nil_r.
  exists s, m, p1, a, p2, b, q1, q2. split; [|auto]. apply (MixText s w m lm p1 a la p2 b lb W M A B).
Qed.

(** ** What is not as CSS asks *)
Definition xyz (x y z : R) (a : num) : css := Plain XYZd65 (Comps (Some x) (Some y) (Some z) a).
Lemma percentage_range_wrong :
  exists l c, mix_text XYZd65 Shorter (Some (3 / 2)) (xyz 1 0 0 (Some 1)) None (xyz 0 1 0 (Some 1)) l /\ parse_color_mix l = Some c.
Proof.
  eexists. assert (T : mix_text XYZd65 Shorter (Some (3 / 2)) (xyz 1 0 0 (Some 1)) None (xyz 0 1 0 (Some 1))
    ([Word "in"; Word "xyz"] ++ [] ++ [Comma] ++ [Color (xyz 1 0 0 (Some 1)); Percent (3 / 2)] ++ [Comma] ++ [Color (xyz 0 1 0 (Some 1))])).
  { constructor; [cbn; tauto | constructor ..]. }
  assert (C : forall c, is_pair c = false -> (exists x y z, c = xyz x y z (Some 1)) -> covered XYZd65 c) by (intros c _ [x [y [z ->]]] N; congruence).
  destruct (interpolate_correct XYZd65 Shorter (3 / 2) (1 - 3 / 2) (xyz 1 0 0 (Some 1)) (xyz 0 1 0 (Some 1))) as [c [I _]];
    [exact I | lra | apply C; [reflexivity | do 3 eexists; reflexivity].. |].
  exists c. split; [exact T|]. rewrite (parse_complete _ _ _ _ _ _ _ _ _ T (FirstPercent (3 / 2))).
  destruct (Req_EM_T _ 0); [lra | exact I].
Qed.
Lemma eqb_true x y : x = y -> eqb x y = true.
Proof. apply eqb_iff. Qed.
Lemma eqb_neq x y : x <> y -> eqb x y = false.
Proof. apply eqb_false. Qed.
Definition lch (l c h a : num) : css := Plain LCH (Comps l c h a).
Lemma transparent_wrong :
  exists r, interpolate LCH Shorter (1 / 2) (1 / 2) (lch (Some 50) (Some 10) (Some 0) (Some 0)) (lch (Some 50) (Some 10) (Some 0) (Some 0)) = Some (Plain LCH r)
            /\ alpha r = Some 0 /\ c1 r = None /\ c2 r = None.
Proof.
  eexists. split; [reflexivity|].
  unfold prepare. cbn [own_space lch]. destruct (space_eq_dec LCH LCH) as [_|N]; [|congruence].
  unfold convert. destruct (space_eq_dec LCH LCH) as [_|N]; [|congruence].
  unfold mix_comps. cbn [fill_missing fill c1 c2 c3 alpha adjust_hue interpolate_num].
  destruct (interpolate_hue Shorter 0 0) as [x y]. cbn [premultiply c1 c2 c3 alpha nmul lift2].
  rewrite eqb_true by lra. cbn [interpolate_comps mean nadd nmul lift2 c1 c2 c3 alpha unpremultiply ndiv].
  rewrite eqb_true by lra. repeat split. f_equal. lra.
Qed.
Lemma lch_black c2' c3' a : adjust_powerless LCH (Comps (Some 0) c2' c3' a) = Comps (Some 0) None None a.
Proof.
  assert (E : nabs_lt (Some 0) f32_epsilon = true).
  { apply nabs_lt_iff. exists 0. split; [reflexivity|]. rewrite Rminus_0_r, Rabs_R0. apply Rinv_0_lt_compat. apply pow_lt. lra. }
  unfold adjust_powerless. cbn [c1 c2 c3 alpha]. destruct (nabs_lt c2' f32_epsilon); cbn [c1 c2 c3 alpha]; rewrite E; reflexivity.
Qed.
Lemma interpolate_black m p q a b l c h :
  p + q = 1 ->
  exists r, interpolate LCH m p q (Plain LAB (Comps None (Some a) (Some b) None)) (lch (Some l) (Some c) (Some h) (Some 1)) = Some (Plain LCH r)
            /\ alpha r = Some (1 * q) /\ (q <> 0 -> c1 r = Some l).
Proof.
  intros S. eexists. split; [reflexivity|]. unfold prepare. cbn [own_space lch].
  destruct (space_eq_dec LAB LCH) as [E|_]; [discriminate|]. destruct (space_eq_dec LCH LCH) as [_|N]; [|congruence].
  unfold convert. destruct (space_eq_dec LAB LCH) as [E|_]; [discriminate|]. destruct (space_eq_dec LCH LCH) as [_|N]; [|congruence].
  cbn [direct via_triple resolved resolve_num c1 c2 c3 alpha rectangular_to_polar full in_gamut].
  rewrite lch_black.
  unfold mix_comps. cbn [fill_missing fill c1 c2 c3 alpha adjust_hue interpolate_num].
  destruct (interpolate_hue m h h) as [x y]. cbn [premultiply c1 c2 c3 alpha nmul lift2].
  rewrite eqb_true by exact S. cbn [interpolate_comps mean nadd nmul lift2 c1 c2 c3 alpha unpremultiply ndiv].
  split.
  - f_equal. rewrite S. lra.
  - intros Q. rewrite eqb_neq by lra. f_equal. field. lra.
Qed.
Lemma missing_wrong :
  exists r, interpolate LCH Shorter (1 / 2) (1 / 2) (Plain LAB (Comps None (Some 40) (Some 0) (Some 1))) (lch (Some 50) (Some 10) (Some 0) (Some 1)) = Some (Plain LCH r)
            /\ c1 r = Some 25.
Proof.
  eexists. split; [reflexivity|]. unfold prepare. cbn [own_space lch].
  destruct (space_eq_dec LAB LCH) as [E|_]; [discriminate|]. destruct (space_eq_dec LCH LCH) as [_|N]; [|congruence].
  unfold convert. destruct (space_eq_dec LAB LCH) as [E|_]; [discriminate|]. destruct (space_eq_dec LCH LCH) as [_|N]; [|congruence].
  cbn [direct via_triple resolved resolve_num c1 c2 c3 alpha rectangular_to_polar full in_gamut].
  rewrite lch_black.
  unfold mix_comps. cbn [fill_missing fill c1 c2 c3 alpha adjust_hue interpolate_num].
  destruct (interpolate_hue Shorter 0 0) as [x y]. cbn [premultiply c1 c2 c3 alpha nmul lift2].
  rewrite eqb_true by lra. cbn [interpolate_comps mean nadd nmul lift2 c1 c2 c3 alpha unpremultiply ndiv].
  rewrite eqb_neq by lra. f_equal. field.
Qed.
Lemma missing_alpha_wrong :
  exists r, interpolate LCH Shorter (1 / 2) (1 / 2) (Plain LAB (Comps None (Some 40) (Some 0) None)) (lch (Some 50) (Some 10) (Some 0) (Some 1)) = Some (Plain LCH r)
            /\ alpha r = Some (1 / 2).
Proof. destruct (interpolate_black Shorter (1 / 2) (1 / 2) 40 0 50 10 0) as [r [I [A _]]]; [lra|]. exists r. split; [exact I|]. rewrite A. f_equal. lra. Qed.
