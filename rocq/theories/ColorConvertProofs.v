(** * Proofs that conversions keep the point that a colour stands for *)
From Coq Require Import Reals ZArith Bool List Lra Lia.
From Verif Require Import MatrixModel MatrixProofs ColorSpaceModel ColorSpaceSpec ColorSpaceProofs.
Import ListNotations.
Local Open Scope R_scope.

(** ** All conversions *)
Lemma of_primaries_to e p w c m (f : R -> R) v :
  0 <= e -> basis e p w (col1 m) (col2 m) (col3 m) -> (forall u, decoded c u (f u)) -> of_primaries e p w c v (multiply_matrix m (each f v)).
Proof.
  intros E B D. destruct v as [[r g] b]. cbn [each of_primaries]. exists (col1 m), (col2 m), (col3 m), (f r), (f g), (f b).
  split; [exact B|]. split; [left; apply D|]. split; [left; apply D|]. split; [left; apply D|].
  rewrite columns. apply close_refl. exact E.
Qed.
Lemma of_primaries_from e p w c m m' (f : R -> R) x :
  basis e p w (col1 m) (col2 m) (col3 m) -> (forall u, encoded c u (f u)) -> close e x (multiply_matrix m (multiply_matrix m' x)) ->
  of_primaries e p w c (each f (multiply_matrix m' x)) x.
Proof.
  intros B D C. destruct (multiply_matrix m' x) as [[r g] b]. cbn [each of_primaries]. exists (col1 m), (col2 m), (col3 m), r, g, b.
  split; [exact B|]. split; [right; apply D|]. split; [right; apply D|]. split; [right; apply D|]. rewrite <- columns. exact C.
Qed.
(** A colour in the linear space and one with the curve that stand for the same *)
Lemma each_id v : each (fun x => x) v = v.
Proof. destruct v as [[? ?] ?]. reflexivity. Qed.
Lemma close_weaken e e' v w : e <= e' -> close e v w -> close e' v w.
Proof.
  intros E. pose proof (size_nonneg v) as S. destruct v as [[x y] z], w as [[x' y'] z']. cbn -[size].
  intros [A [B C]]. repeat split; eapply Rle_trans; try eassumption; apply Rmult_le_compat_r; assumption.
Qed.
Lemma prophoto_xyz50_spec v a : decodable ProPhoto v -> exists x, prophoto_xyz50 (full v a) = full x a /\ of_primaries 0.00001 prophoto_primaries D50 ProphotoCurve v x.
Proof.
  destruct v as [[r g] b]. intros [A [B C]].
  destruct (lin_prophoto_spec r A) as [lr [ER DR]], (lin_prophoto_spec g B) as [lg [EG DG]], (lin_prophoto_spec b C) as [lb [EB DB]].
  exists (multiply_matrix prophoto_to_xyz (lr, lg, lb)). split.
  - unfold prophoto_xyz50. cbn [full resolved c1 c2 c3 alpha resolve_num]. rewrite ER, EG, EB. reflexivity.
  - cbn [of_primaries]. exists (col1 prophoto_to_xyz), (col2 prophoto_to_xyz), (col3 prophoto_to_xyz), lr, lg, lb.
    split; [apply prophoto_basis|]. split; [left; exact DR|]. split; [left; exact DG|]. split; [left; exact DB|].
    rewrite columns. apply close_refl. lra.
Qed.
Lemma resolved_full v a : resolved (full v a) = v.
Proof. destruct v as [[? ?] ?]. reflexivity. Qed.
Lemma alpha_full v a : alpha (full v a) = Some a.
Proof. destruct v as [[? ?] ?]. reflexivity. Qed.
Lemma via_full f v a : via_triple f (full v a) = full (f v) a.
Proof. destruct v as [[? ?] ?]. reflexivity. Qed.
Lemma scale_full k v a : scale_rgb k (full v a) = full (each (fun x => x * k) v) a.
Proof. destruct v as [[? ?] ?]. reflexivity. Qed.
Lemma over255_each v : each (fun x => x * (1 / 255)) v = over255 v.
Proof. destruct v as [[? ?] ?]. cbn. apply f_equal2; [apply f_equal2|]; lra. Qed.
Lemma srgb_to v : of_primaries fine srgb_primaries D65 SrgbCurve v (srgb_xyz65 v).
Proof. apply of_primaries_to; [apply fine_pos | apply srgb_basis | apply lin_srgb_spec]. Qed.
Lemma srgb_from x : of_primaries fine srgb_primaries D65 SrgbCurve (xyz_srgb x) x.
Proof. apply of_primaries_from with srgb_to_xyz; [apply srgb_basis | apply gam_srgb_spec | apply srgb_inverse]. Qed.
Lemma over255_back v : over255 (each (fun x => x * 255) v) = v.
Proof. destruct v as [[? ?] ?]. cbn. apply f_equal2; [apply f_equal2|]; lra. Qed.

Lemma to_xyz_means s v a : decodable s v -> exists x, to_xyz s (full v a) = full x a /\ means s v x.
Proof.
  intros OK. destruct s; cbn [to_xyz means]; rewrite ?scale_full, ?via_full; try (eexists; split; [reflexivity|]).
  - apply srgb_to.
  - rewrite over255_each. apply srgb_to.
  - pose proof (of_primaries_to fine srgb_primaries D65 Straight srgb_to_xyz (fun x => x) v fine_pos srgb_basis (fun u => eq_refl)) as H.
    rewrite each_id in H. exact H.
  - apply of_primaries_to; [apply fine_pos | apply p3_basis | apply lin_srgb_spec].
  - apply of_primaries_to; [apply fine_pos | apply a98_basis | apply lin_a98_spec].
  - destruct (prophoto_xyz50_spec v a OK) as [x [-> H]]. rewrite via_full. eexists. split; [reflexivity|]. exists x. split; [exact H | apply to_d65_adapted].
  - apply of_primaries_to; [apply fine_pos | apply rec2020_basis | apply lin_rec2020_spec].
  - exists (lab_to_xyz v). split; [apply lab_to_xyz_point | apply to_d65_adapted].
  - exists (polar_to_rectangular v), (lab_to_xyz (polar_to_rectangular v)).
    split; [apply polar_to_rectangular_spec|]. split; [apply lab_to_xyz_point | apply to_d65_adapted].
  - apply oklab_to_xyz_point.
  - exists (polar_to_rectangular v). split; [apply polar_to_rectangular_spec | apply oklab_to_xyz_point].
  - apply to_d65_adapted.
  - reflexivity.
  - exists (hsl_srgb v). split; [apply hsl_srgb_spec | apply srgb_to].
  - exists (hwb_srgb v). split; [apply hwb_srgb_spec | apply srgb_to].
Qed.
Lemma prophoto_from x : of_primaries 0.00001 prophoto_primaries D50 ProphotoCurve (each gam_prophoto (multiply_matrix xyz_to_prophoto x)) x.
Proof.
  apply of_primaries_from with prophoto_to_xyz; [apply prophoto_basis | apply gam_prophoto_spec |].
  eapply close_weaken; [|apply prophoto_inverse]. unfold fine. lra.
Qed.
Lemma of_xyz_means t x a : t <> HSL -> t <> HWB -> exists w, of_xyz t (full x a) = full w a /\ means t w x.
Proof.
  intros N1 N2. destruct t; try congruence; cbn [of_xyz means]; rewrite ?via_full, ?scale_full; eexists; (split; [reflexivity|]).
  - apply srgb_from.
  - rewrite over255_back. apply srgb_from.
  - pose proof (of_primaries_from fine srgb_primaries D65 Straight srgb_to_xyz xyz_to_srgb (fun x => x) x srgb_basis (fun u => eq_refl) (srgb_inverse x)) as H.
    rewrite each_id in H. exact H.
  - apply of_primaries_from with p3_to_xyz; [apply p3_basis | apply gam_srgb_spec | apply p3_inverse].
  - apply of_primaries_from with a98_to_xyz; [apply a98_basis | apply gam_a98_spec | apply a98_inverse].
  - exists (multiply_matrix d65_to_d50 x). split; [apply prophoto_from | apply to_d50_adapted].
  - apply of_primaries_from with rec2020_to_xyz; [apply rec2020_basis | apply gam_rec2020_spec | apply rec2020_inverse].
  - exists (multiply_matrix d65_to_d50 x). split; [apply xyz_to_lab_point | apply to_d50_adapted].
  - exists (xyz_lab x), (multiply_matrix d65_to_d50 x). split; [apply rectangular_to_polar_spec|]. split; [apply xyz_to_lab_point | apply to_d50_adapted].
  - apply xyz_to_oklab_point.
  - exists (xyz_to_oklab x). split; [apply rectangular_to_polar_spec | apply xyz_to_oklab_point].
  - apply to_d50_adapted.
  - reflexivity.
Qed.
Lemma within_iff' lo hi x : lo <= x <= hi -> within lo hi (Some x) = true.
Proof. intros [A B]. cbn [within]. rewrite !ltb_no by assumption. reflexivity. Qed.
Lemma resolve_cube w a : in_cube w -> resolve_srgb (full w a) = full w a.
Proof.
  intros C. unfold resolve_srgb. assert (E : resolve_missing (full w a) = full w a) by (destruct w as [[? ?] ?]; reflexivity). rewrite E.
  destruct w as [[r g] b]. destruct C as [A [B C]]. cbn [in_gamut full c1 c2 c3]. rewrite !within_iff' by assumption. reflexivity.
Qed.
Lemma to_hsl w x a : in_cube w -> of_primaries fine srgb_primaries D65 SrgbCurve w x ->
  alpha (hsl_of_srgb (full w a)) = Some a /\ means HSL (resolved (hsl_of_srgb (full w a))) x.
Proof.
  intros C H. unfold hsl_of_srgb. rewrite resolve_cube by exact C. rewrite resolved_full, alpha_full. cbn [resolve_num]. split.
  - destruct w as [[r g] b]. reflexivity.
  - exists w. split; [apply srgb_hsl_spec; exact C | exact H].
Qed.
Lemma to_hwb w x a : in_cube w -> of_primaries fine srgb_primaries D65 SrgbCurve w x ->
  alpha (hwb_of_srgb (full w a)) = Some a /\ means HWB (resolved (hwb_of_srgb (full w a))) x.
Proof.
  intros C H. unfold hwb_of_srgb. rewrite resolve_cube by exact C. rewrite resolved_full, alpha_full. cbn [resolve_num]. split.
  - destruct w as [[r g] b]. reflexivity.
  - exists w. split; [apply srgb_hwb_spec; exact C | exact H].
Qed.
Lemma agrees_full s t v a w x : means s v x -> means t w x -> agrees s t v a (full w a).
Proof. intros A B. split; [apply alpha_full|]. exists x. rewrite resolved_full. auto. Qed.
Lemma straight_curve_to v x : x = multiply_matrix srgb_to_xyz v -> means SRGBLinear v x.
Proof. intros ->. pose proof (of_primaries_to fine srgb_primaries D65 Straight srgb_to_xyz (fun x => x) v fine_pos srgb_basis (fun u => eq_refl)) as H. rewrite each_id in H. exact H. Qed.
Lemma gam_means v : means SRGB (each gam_srgb v) (multiply_matrix srgb_to_xyz v).
Proof.
  destruct v as [[r g] b]. cbn [means each of_primaries]. exists (col1 srgb_to_xyz), (col2 srgb_to_xyz), (col3 srgb_to_xyz), r, g, b.
  split; [apply srgb_basis|]. split; [right; apply gam_srgb_spec|]. split; [right; apply gam_srgb_spec|]. split; [right; apply gam_srgb_spec|].
  rewrite columns. apply close_refl, fine_pos.
Qed.
Lemma agrees_hsl s v a w x : in_cube w -> means s v x -> of_primaries fine srgb_primaries D65 SrgbCurve w x -> agrees s HSL v a (hsl_of_srgb (full w a)).
Proof. intros C A B. destruct (to_hsl w x a C B) as [E M]. split; [exact E|]. exists x. auto. Qed.
Lemma agrees_hwb s v a w x : in_cube w -> means s v x -> of_primaries fine srgb_primaries D65 SrgbCurve w x -> agrees s HWB v a (hwb_of_srgb (full w a)).
Proof. intros C A B. destruct (to_hwb w x a C B) as [E M]. split; [exact E|]. exists x. auto. Qed.
Lemma convert_agrees s t v a : convertible s t v a -> agrees s t v a (convert s t (full v a)).
Proof.
  intros [D C]. destruct (to_xyz_means s v a D) as [x [EX MX]].
  destruct (space_eq_dec s t) as [<-|N].
  { unfold convert. destruct (space_eq_dec s s); [|congruence]. apply agrees_full with x; exact MX. }
  assert (GEN : direct s t = None -> agrees s t v a (convert s t (full v a))).
  { intros E. unfold convert. destruct (space_eq_dec s t); [contradiction|]. rewrite E, EX.
    destruct (space_eq_dec t HSL) as [->|N1]; [|destruct (space_eq_dec t HWB) as [->|N2]].
    1, 2: pose proof (C ltac:(auto)) as C2; unfold in_srgb in C2; rewrite E in C2; cbn [from_xyz];
      assert (CX : convert s XYZd65 (full v a) = full x a) by (unfold convert; destruct (space_eq_dec s XYZd65) as [->|]; [rewrite <- EX; reflexivity|]; destruct s; cbn in E; try discriminate E; cbn [direct from_xyz of_xyz]; try exact EX; congruence);
      rewrite CX in C2; unfold convert in C2; destruct (space_eq_dec XYZd65 SRGB); [discriminate|]; cbn [direct from_xyz to_xyz] in C2;
      change (of_xyz SRGB (full x a)) with (via_triple xyz_srgb (full x a)) in *; rewrite via_full, ?resolved_full in *.
    - destruct (to_hsl (xyz_srgb x) x a C2 (srgb_from x)) as [A B]. split; [exact A|]. exists x. auto.
    - destruct (to_hwb (xyz_srgb x) x a C2 (srgb_from x)) as [A B]. split; [exact A|]. exists x. auto.
    - assert (F : from_xyz t (full x a) = of_xyz t (full x a)) by (destruct t; try reflexivity; congruence). rewrite F.
      destruct (of_xyz_means t x a N1 N2) as [w [-> MW]]. apply agrees_full with x; assumption. }
  destruct (direct s t) as [f|] eqn:E; [|auto]. clear GEN.
  assert (CE : convert s t (full v a) = f (full v a)) by (unfold convert; destruct (space_eq_dec s t); [contradiction|]; rewrite E; reflexivity).
  rewrite CE. clear CE.
  destruct s, t; cbn [direct] in E; try discriminate E; injection E as <-; rewrite ?scale_full, ?via_full, ?scale_full, ?over255_each.
  all: try (pose proof (C ltac:(auto)) as C1; unfold in_srgb in C1; cbn [direct] in C1; unfold convert in C1; cbn [space_eq_dec] in C1;
            match type of C1 with context [space_eq_dec ?p ?q] => destruct (space_eq_dec p q) as [?|?] end; try congruence; cbn [direct] in C1;
            rewrite ?scale_full, ?via_full, ?resolved_full, ?over255_each in C1).
  - apply agrees_full with (srgb_xyz65 v); [apply srgb_to|]. cbn [means]. rewrite over255_back. apply srgb_to.
  - apply agrees_full with (srgb_xyz65 v); [apply srgb_to|]. apply straight_curve_to. reflexivity.
  - apply agrees_hsl with (srgb_xyz65 v); [exact C1 | apply srgb_to | apply srgb_to].
  - apply agrees_hwb with (srgb_xyz65 v); [exact C1 | apply srgb_to | apply srgb_to].
  - apply agrees_full with (srgb_xyz65 (over255 v)); apply srgb_to.
  - apply agrees_full with (srgb_xyz65 (over255 v)); [apply srgb_to|]. apply straight_curve_to. reflexivity.
  - apply agrees_hsl with (srgb_xyz65 (over255 v)); [exact C1 | apply srgb_to | apply srgb_to].
  - apply agrees_hwb with (srgb_xyz65 (over255 v)); [exact C1 | apply srgb_to | apply srgb_to].
  - apply agrees_full with (multiply_matrix srgb_to_xyz v); [apply straight_curve_to; reflexivity | apply gam_means].
  - apply agrees_full with (multiply_matrix srgb_to_xyz v); [apply straight_curve_to; reflexivity|]. cbn [means]. rewrite over255_back. apply gam_means.
  - destruct (prophoto_xyz50_spec v a D) as [y [-> H]]. apply agrees_full with (multiply_matrix d50_to_d65 y).
    + exists y. split; [exact H | apply to_d65_adapted].
    + apply to_d65_adapted.
  - apply agrees_full with (lab_xyz65 v).
    + exists (lab_to_xyz v). split; [apply lab_to_xyz_point | apply to_d65_adapted].
    + exists v, (lab_to_xyz v). split; [apply rectangular_to_polar_spec|]. split; [apply lab_to_xyz_point | apply to_d65_adapted].
  - apply agrees_full with (lab_xyz65 v).
    + exists (lab_to_xyz v). split; [apply lab_to_xyz_point | apply to_d65_adapted].
    + apply to_d65_adapted.
  - apply agrees_full with (lab_xyz65 (polar_to_rectangular v)).
    + exists (polar_to_rectangular v), (lab_to_xyz (polar_to_rectangular v)).
      split; [apply polar_to_rectangular_spec|]. split; [apply lab_to_xyz_point | apply to_d65_adapted].
    + exists (lab_to_xyz (polar_to_rectangular v)). split; [apply lab_to_xyz_point | apply to_d65_adapted].
  - apply agrees_full with (oklab_to_xyz v); [apply oklab_to_xyz_point|]. exists v. split; [apply rectangular_to_polar_spec | apply oklab_to_xyz_point].
  - apply agrees_full with (oklab_to_xyz (polar_to_rectangular v)); [|apply oklab_to_xyz_point].
    exists (polar_to_rectangular v). split; [apply polar_to_rectangular_spec | apply oklab_to_xyz_point].
  - apply agrees_full with (multiply_matrix d50_to_d65 v); [apply to_d65_adapted|]. exists v. split; [apply prophoto_from | apply to_d65_adapted].
  - apply agrees_full with (multiply_matrix d50_to_d65 v); [apply to_d65_adapted|]. exists v. split; [apply xyz_to_lab_point | apply to_d65_adapted].
  - apply agrees_full with (srgb_xyz65 (hsl_srgb v)); [|apply srgb_to]. exists (hsl_srgb v). split; [apply hsl_srgb_spec | apply srgb_to].
  - apply agrees_full with (srgb_xyz65 (hsl_srgb v)).
    + exists (hsl_srgb v). split; [apply hsl_srgb_spec | apply srgb_to].
    + cbn [means]. rewrite over255_back. apply srgb_to.
  - apply agrees_hwb with (srgb_xyz65 (hsl_srgb v)); [exact C1 | | apply srgb_to]. exists (hsl_srgb v). split; [apply hsl_srgb_spec | apply srgb_to].
  - apply agrees_full with (srgb_xyz65 (hwb_srgb v)); [|apply srgb_to]. exists (hwb_srgb v). split; [apply hwb_srgb_spec | apply srgb_to].
  - apply agrees_full with (srgb_xyz65 (hwb_srgb v)).
    + exists (hwb_srgb v). split; [apply hwb_srgb_spec | apply srgb_to].
    + cbn [means]. rewrite over255_back. apply srgb_to.
  - apply agrees_hsl with (srgb_xyz65 (hwb_srgb v)); [exact C1 | | apply srgb_to]. exists (hwb_srgb v). split; [apply hwb_srgb_spec | apply srgb_to].
Qed.

(** ** There and back *)
Lemma convert_direct s t f c : s <> t -> direct s t = Some f -> convert s t c = f c.
Proof. intros N E. unfold convert. destruct (space_eq_dec s t); [contradiction|]. rewrite E. reflexivity. Qed.
Lemma lab_xyz_inverse v : xyz_to_lab (lab_to_xyz v) = v.
Proof. symmetry. apply (lab_point_fun _ _ _ _ (lab_to_xyz_point v) (xyz_to_lab_point (lab_to_xyz v))). reflexivity. Qed.
Lemma xyz_lab_inverse v : lab_to_xyz (xyz_to_lab v) = v.
Proof. symmetry. apply (lab_point_fun _ _ _ _ (xyz_to_lab_point v) (lab_to_xyz_point (xyz_to_lab v))). reflexivity. Qed.
Lemma polar_fun v w w' : polar v w -> polar v w' -> w = w'.
Proof. destruct v as [[L c] h], w as [[? ?] ?], w' as [[? ?] ?]. intros [-> [-> ->]] [-> [-> ->]]. reflexivity. Qed.
Lemma rectangular_inverse v : polar_to_rectangular (rectangular_to_polar v) = v.
Proof. eapply polar_fun; [apply polar_to_rectangular_spec | apply rectangular_to_polar_spec]. Qed.
Lemma int_between (i : Z) : -1 < IZR i < 1 -> i = 0%Z.
Proof. intros [A B]. apply (lt_IZR (-1)) in A. apply (lt_IZR i 1) in B. lia. Qed.
Lemma hsl_channel_fun h s l n v v' : hsl_channel h s l n v -> hsl_channel h s l n v' -> v = v'.
Proof.
  intros [k [j [E [R ->]]]] [k' [j' [E' [R' ->]]]]. assert (j - j' = 0)%Z by (apply int_between; rewrite minus_IZR; lra).
  assert (j = j') by lia. subst. reflexivity.
Qed.
Lemma hsl_rgb_fun v w w' : hsl_rgb v w -> hsl_rgb v w' -> w = w'.
Proof.
  destruct v as [[h s] l], w as [[? ?] ?], w' as [[? ?] ?]. intros [A [B C]] [A' [B' C']].
  rewrite (hsl_channel_fun _ _ _ _ _ _ A A'), (hsl_channel_fun _ _ _ _ _ _ B B'), (hsl_channel_fun _ _ _ _ _ _ C C'). reflexivity.
Qed.
Lemma hwb_rgb_fun v w w' : hwb_rgb v w -> hwb_rgb v w' -> w = w'.
Proof.
  destruct v as [[h p] q], w as [[? ?] ?], w' as [[? ?] ?].
  intros [[A [-> [-> ->]]]|[A [x [y [z [H [-> [-> ->]]]]]]]] [[A' [-> [-> ->]]]|[A' [x' [y' [z' [H' [-> [-> ->]]]]]]]]; try lra; [reflexivity|].
  pose proof (hsl_rgb_fun _ _ _ H H') as E. injection E as -> -> ->. reflexivity.
Qed.
Lemma hsl_back v a : in_cube v -> hsl_srgb (resolved (srgb_hsl v a)) = v.
Proof. intros C. eapply hsl_rgb_fun; [apply hsl_srgb_spec | apply srgb_hsl_spec; exact C]. Qed.
Lemma hwb_back v a : in_cube v -> hwb_srgb (resolved (srgb_hwb v a)) = v.
Proof. intros C. eapply hwb_rgb_fun; [apply hwb_srgb_spec | apply srgb_hwb_spec; exact C]. Qed.
Lemma round_trip_hsl v a : in_cube v -> convert HSL SRGB (convert SRGB HSL (full v a)) = full v a.
Proof.
  intros C. rewrite (convert_direct SRGB HSL _ _ ltac:(discriminate) eq_refl), (convert_direct HSL SRGB _ _ ltac:(discriminate) eq_refl).
  unfold hsl_of_srgb. rewrite resolve_cube, resolved_full, alpha_full by exact C. unfold via_triple. rewrite hsl_back by exact C.
  destruct v as [[r g] b]. reflexivity.
Qed.
Lemma round_trip_hwb v a : in_cube v -> convert HWB SRGB (convert SRGB HWB (full v a)) = full v a.
Proof.
  intros C. rewrite (convert_direct SRGB HWB _ _ ltac:(discriminate) eq_refl), (convert_direct HWB SRGB _ _ ltac:(discriminate) eq_refl).
  unfold hwb_of_srgb. rewrite resolve_cube, resolved_full, alpha_full by exact C. unfold via_triple. rewrite hwb_back by exact C.
  destruct v as [[r g] b]. reflexivity.
Qed.
Lemma round_trip_exact s t v a :
  In (s, t) [(LAB, XYZd50); (XYZd50, LAB); (LAB, LCH); (OKLAB, OKLCH); (RGB, SRGB); (SRGB, RGB)] -> convert t s (convert s t (full v a)) = full v a.
Proof.
  intros H. cbn in H. repeat destruct H as [H|H]; try contradiction; injection H as <- <-;
    unfold convert; repeat match goal with |- context [space_eq_dec ?p ?q] => destruct (space_eq_dec p q); [discriminate|] end; cbn [direct];
    rewrite ?via_full, ?scale_full, ?via_full.
  - rewrite lab_xyz_inverse. reflexivity.
  - rewrite xyz_lab_inverse. reflexivity.
  - rewrite rectangular_inverse. reflexivity.
  - rewrite rectangular_inverse. reflexivity.
  - destruct v as [[r g] b]. cbn [each full]. do 3 f_equal; lra.
  - destruct v as [[r g] b]. cbn [each full]. do 3 f_equal; lra.
Qed.

(** The functions of the code, from the relations *)
Lemma power_inj e x y z : 0 < e -> power e x z -> power e y z -> x = y.
Proof.
  intros E [[-> ->]|[A ->]] [[-> B]|[C B]]; auto.
  - pose proof (exp_pos (e * ln y)). unfold Rpower in B. lra.
  - pose proof (exp_pos (e * ln x)). unfold Rpower in B. lra.
  - destruct (Rtotal_order x y) as [L|[L|L]]; [|exact L|].
    + pose proof (Rpower_lt_base x y e E (conj A L)). lra.
    + pose proof (Rpower_lt_base y x e E (conj C L)). lra.
Qed.
Lemma odd_fun (P : R -> R -> Prop) v l l' : (forall u w w', 0 <= u -> P u w -> P u w' -> w = w') -> odd P v l -> odd P v l' -> l = l'.
Proof. intros F [[A B]|[A B]] [[C D]|[C D]]; try lra; [eapply F; eassumption|]. assert (- l = - l') by (eapply (F (- v)); eauto; lra). lra. Qed.
Lemma decoded_fun c v l l' : decoded c v l -> decoded c v l' -> l = l'.
Proof.
  destruct c; cbn [decoded]; [congruence|..]; apply odd_fun; intros u w w' U.
  - intros [[A ->]|[A B]] [[C ->]|[C D]]; try lra. eapply power_fun; eassumption.
  - apply power_fun.
  - intros [[A ->]|[A B]] [[C ->]|[C D]]; try lra. eapply power_fun; eassumption.
  - intros [[A ->]|[A B]] [[C ->]|[C D]]; try lra. eapply power_fun; eassumption.
Qed.
Lemma encoded_fun c v l l' : encoded c v l -> encoded c v l' -> l = l'.
Proof.
  destruct c; cbn [encoded]; [congruence|..]; apply odd_fun; intros u w w' U.
  - intros [[A ->]|[A B]] [[C ->]|[C D]]; try lra. pose proof (power_fun _ _ _ _ B D). lra.
  - apply power_fun.
  - intros [[A ->]|[A B]] [[C ->]|[C D]]; try lra. eapply power_fun; eassumption.
  - intros [[A ->]|[A B]] [[C ->]|[C D]]; try lra. pose proof (power_fun _ _ _ _ B D). unfold rec2020_alpha in *. lra.
Qed.
Lemma curves_agree c v l : smooth c v -> decoded c v l -> encoded c l v.
Proof.
  destruct c; cbn [smooth decoded encoded]; auto using srgb_encode_decoded, a98_encode_decoded, prophoto_encode_decoded, rec2020_encode_decoded.
Qed.
Lemma curves_agree_back c v l : smooth_light c l -> encoded c l v -> decoded c v l.
Proof.
  destruct c; cbn [smooth_light decoded encoded]; auto using srgb_decode_encoded, a98_decode_encoded, prophoto_decode_encoded, rec2020_decode_encoded.
Qed.
Lemma round_trip_linear v a :
  let '(r, g, b) := v in smooth SrgbCurve r -> smooth SrgbCurve g -> smooth SrgbCurve b ->
  convert SRGBLinear SRGB (convert SRGB SRGBLinear (full v a)) = full v a.
Proof.
  destruct v as [[r g] b]. intros A B C.
  rewrite (convert_direct SRGB SRGBLinear _ _ ltac:(discriminate) eq_refl), (convert_direct SRGBLinear SRGB _ _ ltac:(discriminate) eq_refl), !via_full.
  assert (K : forall u, smooth SrgbCurve u -> gam_srgb (lin_srgb u) = u).
  { intros u S. eapply (encoded_fun SrgbCurve); [apply gam_srgb_spec|]. apply curves_agree; [exact S | apply lin_srgb_spec]. }
  cbn [each]. rewrite !K by assumption. reflexivity.
Qed.
Lemma round_trip_light v a :
  let '(r, g, b) := v in smooth_light SrgbCurve r -> smooth_light SrgbCurve g -> smooth_light SrgbCurve b ->
  convert SRGB SRGBLinear (convert SRGBLinear SRGB (full v a)) = full v a.
Proof.
  destruct v as [[r g] b]. intros A B C.
  rewrite (convert_direct SRGB SRGBLinear _ _ ltac:(discriminate) eq_refl), (convert_direct SRGBLinear SRGB _ _ ltac:(discriminate) eq_refl), !via_full.
  assert (K : forall u, smooth_light SrgbCurve u -> lin_srgb (gam_srgb u) = u).
  { intros u S. eapply (decoded_fun SrgbCurve); [apply lin_srgb_spec|]. apply curves_agree_back; [exact S | apply gam_srgb_spec]. }
  cbn [each]. rewrite !K by assumption. reflexivity.
Qed.

(** ** Gamut mapping *)
Section Search.
Variable s : space.
Variables l h a : R.
Let color c := convert OKLCH s (oklch_color l c h a).
Definition ends (c : R) (r : comps) : Prop :=
  (exists lo c', 0 <= lo <= c' /\ c' <= c /\ c' - lo <= gamut_epsilon /\ (lo = 0 \/ in_gamut s (color lo) = true) /\ r = color c')
  \/ (exists c' u, 0 <= c' <= c /\ in_gamut s (color c') = false /\ polar (l, c', h) u /\
        distance_squared (resolved (convert s OKLAB (clip s (color c')))) u < 0.02 ^ 2 /\ r = clip s (color c')).
Lemma delta_distance v w : delta_eok v w < jnd -> distance_squared v w < 0.02 ^ 2.
Proof.
  destruct v as [[x y] z], w as [[x' y'] z']. unfold delta_eok, distance_squared, jnd. intros H.
  set (q := (x - x') ^ 2 + (y - y') ^ 2 + (z - z') ^ 2) in *.
  destruct (Rlt_le_dec q (0.02 ^ 2)) as [L|L]; [exact L|].
  apply sqrt_le_1_alt in L. replace (0.02 ^ 2) with (0.02 * 0.02) in L by ring. rewrite sqrt_square in L by lra. lra.
Qed.
Lemma eps_pos : 0 < gamut_epsilon.
Proof. unfold gamut_epsilon. lra. Qed.
Lemma search_ends c n : forall lo hi cur,
  hi - lo <= gamut_epsilon \/ hi - lo <= INR n * gamut_epsilon -> 0 <= lo <= hi -> hi <= c -> cur = lo \/ cur = hi ->
  (lo = 0 \/ in_gamut s (color lo) = true) -> ends c (chroma_search s (convert OKLCH s) (convert s OKLAB) n l h a lo hi cur).
Proof.
  pose proof eps_pos as EP.
  induction n as [|n IH]; intros lo hi cur F B C U G; cbn [chroma_search]; ltb_case gamut_epsilon (hi - lo).
  - cbn [INR] in F. exfalso. destruct F; lra.
  - left. exists lo, cur. repeat split; try tauto; destruct U; subst; lra.
  - assert (FU : hi - lo <= INR (S n) * gamut_epsilon) by (destruct F; [lra | assumption]). rewrite S_INR in FU.
    change (Comps (Some l) (Some ((lo + hi) / 2)) (Some h) (Some a)) with (oklch_color l ((lo + hi) / 2) h a).
    fold (color ((lo + hi) / 2)). set (m := (lo + hi) / 2) in *.
    assert (NEXT : hi - m <= gamut_epsilon \/ hi - m <= INR n * gamut_epsilon).
    { destruct (Rle_lt_dec (hi - m) gamut_epsilon) as [Q|Q]; [left; exact Q|]. right. unfold m in *. lra. }
    assert (SAME : m - lo = hi - m) by (unfold m; lra).
    destruct (in_gamut s (color m)) eqn:IG.
    + apply IH; [exact NEXT | unfold m; lra | exact C | left; reflexivity | right; exact IG].
    + ltb_case (delta_eok (resolved (convert s OKLAB (clip s (color m)))) (polar_to_rectangular (l, m, h))) jnd.
      * right. exists m, (polar_to_rectangular (l, m, h)). split; [unfold m; lra|]. split; [exact IG|].
        split; [apply polar_to_rectangular_spec|]. split; [apply delta_distance; assumption | reflexivity].
      * apply IH; [rewrite SAME; exact NEXT | unfold m; lra | unfold m; lra | right; reflexivity | exact G].
  - left. exists lo, cur. repeat split; try tauto; destruct U; subst; lra.
Qed.
Lemma fuel_enough c : 0 <= c -> c - 0 <= INR (search_fuel c) * gamut_epsilon.
Proof.
  intros C. pose proof eps_pos as EP. unfold search_fuel. destruct (archimed (c / gamut_epsilon)) as [A _].
  assert (P : 0 <= c / gamut_epsilon) by (apply Rmult_le_pos; [exact C | left; apply Rinv_0_lt_compat; exact EP]).
  assert (Z0 : (0 <= up (c / gamut_epsilon))%Z) by (assert (IZR 0 < IZR (up (c / gamut_epsilon))) by lra; apply lt_IZR in H; lia).
  rewrite INR_IZR_INZ, Z2Nat.id by exact Z0.
  assert (E : c = c / gamut_epsilon * gamut_epsilon) by (field; lra). nra.
Qed.
Lemma map_oklch_mapped c : 0 <= c -> mapped s l c h a (map_gamut_oklch s (convert OKLCH s) (convert s OKLAB) (l, c, h) a).
Proof.
  intros C. unfold map_gamut_oklch.
  destruct (ltb (Rabs (l - 1)) gamut_epsilon || ltb 1 l) eqn:W.
  { apply MappedWhite. apply orb_true_iff in W. destruct W as [W|W]; apply ltb_iff in W; [|lra].
    revert W. unfold Rabs, gamut_epsilon. destruct (Rcase_abs (l - 1)); lra. }
  apply orb_false_iff in W. destruct W as [W1 W2]. apply ltb_false in W1, W2.
  assert (L1 : l <= 1 - gamut_epsilon) by (revert W1; unfold Rabs, gamut_epsilon; destruct (Rcase_abs (l - 1)); lra).
  ltb_case l gamut_epsilon; [apply MappedBlack; exact E|].
  assert (LR : 0.00001 <= l <= 1 - 0.00001) by (split; [exact E | exact L1]).
  destruct (search_ends c (search_fuel c) 0 c c) as [[lo [c' [A [B [D [G ->]]]]]]|[c' [u [A [G [P [D ->]]]]]]]; [right; apply fuel_enough; exact C | lra | lra | right; reflexivity | left; reflexivity | |].
  - eapply MappedChroma; eassumption.
  - eapply MappedClipped; eassumption.
Qed.
End Search.
Lemma oklch_chroma s c : 0 <= resolve_num (c2 (convert s OKLCH c)) \/ s = OKLCH.
Proof.
  destruct (space_eq_dec s OKLCH) as [->|N]; [auto|]. left.
  assert (P : forall v, let '(_, k, _) := rectangular_to_polar v in 0 <= k).
  { intros v. destruct (rectangular_to_polar_spec v) as [_ H]. destruct (rectangular_to_polar v) as [[? ?] ?]. tauto. }
  unfold convert. destruct (space_eq_dec s OKLCH); [contradiction|].
  assert (Q : forall f d, 0 <= resolve_num (c2 (via_triple (compose f rectangular_to_polar) d))).
  { intros f d. unfold via_triple, compose. pose proof (P (f (resolved d))) as H. destruct (rectangular_to_polar (f (resolved d))) as [[? ?] ?]. exact H. }
  destruct s; cbn [direct from_xyz of_xyz]; try apply Q; try contradiction.
Qed.
Lemma map_gamut_mapped s c :
  s <> OKLCH -> exists l k h, resolved (convert s OKLCH c) = (l, k, h) /\ mapped s l k h (resolve_num (alpha (convert s OKLCH c))) (map_gamut s c).
Proof.
  intros N. exists (resolve_num (c1 (convert s OKLCH c))), (resolve_num (c2 (convert s OKLCH c))), (resolve_num (c3 (convert s OKLCH c))).
  split; [reflexivity|]. unfold map_gamut. apply map_oklch_mapped. destruct (oklch_chroma s c); [assumption | contradiction].
Qed.
(** Clipping ends in the gamut *)
Lemma clamp_range x lo hi : lo <= hi -> lo <= clamp x lo hi <= hi.
Proof. intros H. unfold clamp. ltb_case x lo; [lra|]. ltb_case hi x; lra. Qed.
Lemma clip_in_gamut s c : c1 c <> None -> c2 c <> None -> c3 c <> None -> in_gamut s (clip s c) = true.
Proof.
  destruct c as [[x|] [y|] [z|] a]; cbn [c1 c2 c3]; try congruence. intros _ _ _.
  destruct s; cbn [in_gamut clip c1 c2 c3 nclamp option_map]; rewrite ?within_iff'; try reflexivity; apply clamp_range; lra.
Qed.
Lemma clip_same s c : in_gamut s c = true -> (exists a, alpha c = Some a /\ 0 <= a <= 1) -> s <> HSL -> s <> HWB -> clip s c = c.
Proof.
  intros G [a [A R]] N1 N2. destruct c as [x y z a']. cbn [alpha] in A. subst a'.
  assert (K : forall u lo hi, within lo hi u = true -> nclamp u lo hi = u).
  { intros [u|] lo hi W; cbn [within] in W; [|discriminate]. apply andb_true_iff in W. destruct W as [W1 W2].
    apply negb_true_iff in W1, W2. unfold nclamp, clamp. cbn [option_map]. rewrite W1, W2. reflexivity. }
  assert (KA : nclamp (Some a) 0 1 = Some a) by (apply K, within_iff'; exact R).
  destruct s; try congruence; cbn [in_gamut clip c1 c2 c3 alpha] in *; try reflexivity;
    apply andb_true_iff in G; destruct G as [G G3]; apply andb_true_iff in G; destruct G as [G1 G2]; rewrite !K, KA by assumption; reflexivity.
Qed.
Lemma prophoto_wrong :
  exists v a l, v = (- (1 / 2), 0, 0) /\ decoded ProphotoCurve (- (1 / 2)) l /\ c1 (convert ProPhoto XYZd50 (full v a)) = None.
Proof.
  exists (- (1 / 2), 0, 0), 1, (- powf (1 / 2) 1.8). split; [reflexivity|]. split.
  - right. split; [lra|]. right. split; [lra|]. rewrite !Ropp_involutive. apply powf_power. lra.
  - rewrite (convert_direct ProPhoto XYZd50 _ _ ltac:(discriminate) eq_refl).
    unfold prophoto_xyz50. cbn [full resolved c1 c2 c3 alpha resolve_num]. rewrite lin_prophoto_negative by lra. reflexivity.
Qed.
