(** * Proofs about transform functions *)
From Coq Require Import Reals List Bool Lra.
From Verif Require Import MatrixModel MatrixProofs TransformModel TransformSpec.
Import ListNotations.
Local Open Scope R_scope.

(** ** Effects *)
Lemma same_refl f : same f f.
Proof. intros p. reflexivity. Qed.
Ltac effects := intros [[[? ?] ?] ?]; cbv beta iota zeta delta [shift stretch turn_x turn_y turn_z turn_unit slant project flat solid]; repeat apply pair_eq; try ring.
Lemma turn_unit_x t : same (turn_unit 1 0 0 t) (turn_x t).
Proof. effects. Qed.
Lemma turn_unit_y t : same (turn_unit 0 1 0 t) (turn_y t).
Proof. effects. Qed.
Lemma turn_unit_z t : same (turn_unit 0 0 1 t) (turn_z t).
Proof. effects. Qed.
Lemma turn_unit_neg a b c t : same (turn_unit (- a) (- b) (- c) t) (turn_unit a b c (- t)).
Proof. effects; rewrite ?cos_neg, ?sin_neg; ring. Qed.
Lemma norm_axis x : sqrt (x * x) = Rabs x.
Proof. replace (x * x) with (Rsqr x) by reflexivity. apply sqrt_Rsqr_abs. Qed.
Lemma norm_1 x : sqrt (x * x + 0 * 0 + 0 * 0) = Rabs x.
Proof. rewrite <- norm_axis. f_equal. ring. Qed.
Lemma norm_2 x : sqrt (0 * 0 + x * x + 0 * 0) = Rabs x.
Proof. rewrite <- norm_axis. f_equal. ring. Qed.
Lemma norm_3 x : sqrt (0 * 0 + 0 * 0 + x * x) = Rabs x.
Proof. rewrite <- norm_axis. f_equal. ring. Qed.
Lemma sign_pos x : 0 < x -> x / Rabs x = 1.
Proof. intros H. rewrite Rabs_right by lra. field. lra. Qed.
Lemma sign_neg x : x < 0 -> x / Rabs x = -1.
Proof. intros H. rewrite Rabs_left by lra. field. lra. Qed.
Definition flip (c t : R) : R := if ltb c 0 then - t else t.
Lemma turn_about_x x t : x <> 0 -> same (turn x 0 0 t) (turn_x (flip x t)).
Proof.
  intros N p. unfold turn, flip. rewrite norm_1. destruct (Req_EM_T (Rabs x) 0) as [E|_]; [now apply Rabs_no_R0 in E|].
  replace (0 / Rabs x) with 0 by (field; now apply Rabs_no_R0). destruct (ltb x 0) eqn:L.
  - apply ltb_iff in L. rewrite (sign_neg x L), <- turn_unit_x, <- turn_unit_neg. now rewrite Ropp_0.
  - apply ltb_false in L. rewrite sign_pos by lra. apply turn_unit_x.
Qed.
Lemma turn_about_y x t : x <> 0 -> same (turn 0 x 0 t) (turn_y (flip x t)).
Proof.
  intros N p. unfold turn, flip. rewrite norm_2. destruct (Req_EM_T (Rabs x) 0) as [E|_]; [now apply Rabs_no_R0 in E|].
  replace (0 / Rabs x) with 0 by (field; now apply Rabs_no_R0). destruct (ltb x 0) eqn:L.
  - apply ltb_iff in L. rewrite (sign_neg x L), <- turn_unit_y, <- turn_unit_neg. now rewrite Ropp_0.
  - apply ltb_false in L. rewrite sign_pos by lra. apply turn_unit_y.
Qed.
Lemma turn_about_z x t : x <> 0 -> same (turn 0 0 x t) (turn_z (flip x t)).
Proof.
  intros N p. unfold turn, flip. rewrite norm_3. destruct (Req_EM_T (Rabs x) 0) as [E|_]; [now apply Rabs_no_R0 in E|].
  replace (0 / Rabs x) with 0 by (field; now apply Rabs_no_R0). destruct (ltb x 0) eqn:L.
  - apply ltb_iff in L. rewrite (sign_neg x L), <- turn_unit_z, <- turn_unit_neg. now rewrite Ropp_0.
  - apply ltb_false in L. rewrite sign_pos by lra. apply turn_unit_z.
Qed.
Lemma flip_1 t : flip 1 t = t.
Proof. unfold flip. destruct (ltb 1 0) eqn:L; [|reflexivity]. apply ltb_iff in L. lra. Qed.
Lemma turn_1x t : same (turn 1 0 0 t) (turn_x t).
Proof. intros p. rewrite turn_about_x by lra. now rewrite flip_1. Qed.
Lemma turn_1y t : same (turn 0 1 0 t) (turn_y t).
Proof. intros p. rewrite turn_about_y by lra. now rewrite flip_1. Qed.
Lemma turn_1z t : same (turn 0 0 1 t) (turn_z t).
Proof. intros p. rewrite turn_about_z by lra. now rewrite flip_1. Qed.

(** ** Angles *)
Lemma radians_rad a : to_radians a = rad a.
Proof. destruct a; cbn; field. Qed.
Lemma print_angle_rad a : rad (print_angle a) = rad a.
Proof. destruct a; cbn [print_angle]; try reflexivity. cbv zeta. destruct (eqb _ 0); [|reflexivity]. cbn. field. apply PI_neq0. Qed.
Lemma angle_zero_rad a : angle_zero a = true -> rad a = 0.
Proof. destruct a; cbn; rewrite eqb_iff; intros ->; field. Qed.
Lemma times_rad a : rad (times a (-1)) = - rad a.
Proof. destruct a; cbn; field. Qed.

Section Proofs.
Context {LP LN : Type}.
Variable lp_zero : LP. Variable lp_is_zero : LP -> bool. Variable lp_px : LP -> option R.
Variable ln_zero : LN. Variable ln_is_zero : LN -> bool. Variable ln_px : LN -> option R.
Variable lp_value : LP -> R -> R.
Variable ln_value : LN -> R.
Hypothesis lp_zero_value : forall b, lp_value lp_zero b = 0.
Hypothesis lp_is_zero_value : forall l, lp_is_zero l = true -> forall b, lp_value l b = 0.
Hypothesis ln_zero_value : ln_value ln_zero = 0.
Hypothesis ln_is_zero_value : forall l, ln_is_zero l = true -> ln_value l = 0.
Variables width height : R.
Variable minify : bool.
Notation css_call := (css_call lp_value ln_value width height).
Notation css_calls := (css_calls lp_value ln_value width height).
Notation css_text := (css_text lp_value ln_value width height).
Notation transform_effect := (transform_effect lp_value ln_value width height).
Notation list_effect := (list_effect lp_value ln_value width height).
Notation valid := (valid ln_value).
Notation parse_transform := (@parse_transform LP LN lp_zero).
Notation print_transform := (@print_transform LP LN lp_is_zero ln_is_zero minify).
Notation transform := (transform LP LN).
Notation plain := (@plain LP LN).
Notation plain_text := (@plain_text LP LN).
Notation far := (@far LP LN ln_value).

Lemma unitless_css a : exists t, css_angle (@unitless LP LN a) t /\ t = rad a.
Proof.
  unfold unitless. destruct (angle_zero a) eqn:Z.
  - exists 0. split; [constructor|]. symmetry. now apply angle_zero_rad.
  - exists (rad (print_angle a)). split; [constructor|apply print_angle_rad].
Qed.
Lemma number_css (n : number) : css_number (match n with Num x => @ANum LP LN x | Perc x => APct x end) (num n).
Proof. destruct n; constructor. Qed.

Ltac split_ifs := repeat match goal with |- context [if ?b then _ else _] => let E := fresh "E" in destruct b eqn:E end.
Ltac facts := repeat match goal with
  | H : (_ && _)%bool = true |- _ => apply andb_true_iff in H; destruct H
  | H : negb _ = true |- _ => apply negb_true_iff in H
  | H : eqb _ _ = true |- _ => apply eqb_iff in H
  end.
Lemma print_css t : valid t -> exists f, css_call (print_transform t) f /\ same f (transform_effect t).
Proof.
  destruct t; cbn [TransformSpec.valid TransformModel.print_transform TransformSpec.transform_effect]; intros V; cbv zeta;
    try (destruct (unitless_css a) as (t & U & ->)).
  - split_ifs; facts; eexists; (split; [constructor|]).
    + rewrite (lp_is_zero_value x) by assumption. apply same_refl.
    + rewrite (lp_is_zero_value y) by assumption. apply same_refl.
    + apply same_refl.
  - split_ifs; eexists; (split; [constructor|apply same_refl]).
  - eexists; (split; [constructor|apply same_refl]).
  - eexists; (split; [constructor|apply same_refl]).
  - split_ifs; facts; eexists; (split; [constructor|]); rewrite ?(lp_is_zero_value x) by assumption; rewrite ?(lp_is_zero_value y) by assumption;
      rewrite ?(ln_is_zero_value z) by assumption; apply same_refl.
  - split_ifs; facts; eexists; (split; [constructor; constructor|]); repeat match goal with H : num _ = _ |- _ => rewrite H end; apply same_refl.
  - eexists; (split; [constructor; apply number_css|apply same_refl]).
  - eexists; (split; [constructor; apply number_css|apply same_refl]).
  - eexists; (split; [constructor; apply number_css|apply same_refl]).
  - split_ifs; facts; eexists; (split; [constructor; constructor|]); repeat match goal with H : num _ = _ |- _ => rewrite H end; apply same_refl.
  - eexists; (split; [constructor; exact U|apply same_refl]).
  - eexists; (split; [constructor; exact U|apply same_refl]).
  - eexists; (split; [constructor; exact U|apply same_refl]).
  - split_ifs; eexists; (split; [constructor; exact U|apply same_refl]).
  - split_ifs; facts; eexists; (split; [constructor; exact U|]); subst; intros p; symmetry; [apply turn_1x|apply turn_1y|apply turn_1z|reflexivity].
  - destruct (unitless_css y) as (t & U & ->). split_ifs; facts.
    + eexists; (split; [constructor; exact U|]). rewrite (angle_zero_rad x) by assumption. apply same_refl.
    + exists (slant (rad (print_angle x)) 0). split; [constructor; constructor|]. rewrite (angle_zero_rad y), print_angle_rad by assumption. apply same_refl.
    + exists (slant (rad (print_angle x)) (rad y)). split; [constructor; [constructor|exact U]|]. rewrite print_angle_rad. apply same_refl.
  - destruct (unitless_css x) as (t & U & ->). split_ifs; eexists; (split; [constructor; exact U|apply same_refl]).
  - destruct (unitless_css y) as (t & U & ->). eexists; (split; [constructor; exact U|apply same_refl]).
  - eexists; (split; [constructor; exact V|apply same_refl]).
  - destruct m. eexists; (split; [apply CMatrix|apply same_refl]).
  - destruct m. eexists; (split; [apply CMatrix3d|apply same_refl]).
Qed.

Lemma angle_read a t : css_angle a t -> exists b, @parse_angle LP LN true a = Some b /\ rad b = t.
Proof.
  intros [b|]; [exists b; auto|]. exists (Deg 0). cbn [parse_angle andb]. assert (eqb 0 0 = true) as -> by now apply eqb_iff. split; [reflexivity|cbn; field].
Qed.
Lemma number_read a x : css_number a x -> exists n, @parse_number LP LN a = Some n /\ num n = x.
Proof. intros [y|y]; eexists; (split; [reflexivity|reflexivity]). Qed.
Ltac read_args := repeat match goal with
  | H : css_angle ?a ?t |- _ => destruct (angle_read a t H) as (? & ? & <-); clear H
  | H : css_number ?a ?t |- _ => destruct (number_read a t H) as (? & ? & <-); clear H
  end.
Lemma read_css c f : css_call c f -> c <> (FPerspective, [ANone]) -> exists t, parse_transform c = Some t /\ valid t /\ same (transform_effect t) f.
Proof.
  intros H N. destruct H; try contradiction; read_args;
  try (eexists; (split; [cbn [TransformModel.parse_transform map]; unfold bind; repeat match goal with H : _ = Some _ |- _ => rewrite H end; reflexivity|]); (split; [exact I || assumption|]);
       cbn [TransformSpec.transform_effect]; rewrite ?lp_zero_value; apply same_refl).
  exists (Skew x (Deg 0)). split; [cbn [TransformModel.parse_transform]; unfold bind; rewrite H0; reflexivity|]. split; [exact I|]. cbn [TransformSpec.transform_effect rad].
  replace (0 * PI / 180) with 0 by field. apply same_refl.
Qed.
Lemma angle_unique a t u : @css_angle LP LN a t -> css_angle a u -> t = u.
Proof. intros H K. destruct (angle_read a t H) as (b & E & <-). destruct (angle_read a u K) as (b' & E' & <-). congruence. Qed.
Lemma number_unique a t u : @css_number LP LN a t -> css_number a u -> t = u.
Proof. intros H K. destruct (number_read a t H) as (b & E & <-). destruct (number_read a u K) as (b' & E' & <-). congruence. Qed.
Lemma css_unique c f g : css_call c f -> css_call c g -> same f g.
Proof.
  intros H K p. destruct H; inversion K; subst; try reflexivity;
  repeat match goal with
  | H : css_angle ?a ?t, H' : css_angle ?a ?u |- _ => pose proof (angle_unique a t u H H'); clear H; subst
  | H : css_number ?a ?t, H' : css_number ?a ?u |- _ => pose proof (number_unique a t u H H'); clear H; subst
  end; reflexivity.
Qed.

Ltac split_match H := repeat match type of H with
  | match ?x with _ => _ end = Some _ => first [is_var x; destruct x | destruct x eqn:?]; try discriminate H
  end.
Lemma angle_sound a b : @parse_angle LP LN true a = Some b -> css_angle a (rad b).
Proof.
  destruct a; cbn; try discriminate; [|intros [= ->]; constructor]. destruct (eqb x 0) eqn:E; [|discriminate]. apply eqb_iff in E as ->. intros [= <-]. cbn.
  replace (0 * PI / 180) with 0 by field. constructor.
Qed.
Lemma number_sound a n : @parse_number LP LN a = Some n -> css_number a (num n).
Proof. destruct a; cbn; try discriminate; intros [= <-]; constructor. Qed.
Lemma read_sound c t : parse_transform c = Some t -> valid t -> exists f, css_call c f /\ same f (transform_effect t).
Proof.
  destruct c as [fn args]. unfold TransformModel.parse_transform. unfold bind. intros H V. destruct fn; split_match H;
  repeat match goal with
  | H : match ?x with Some _ => _ | None => _ end = Some _ |- _ => let E := fresh "E" in destruct x eqn:E; [|discriminate H]
  end; injection H as <-;
  repeat match goal with
  | E : parse_angle true _ = Some _ |- _ => apply angle_sound in E
  | E : parse_number _ = Some _ |- _ => apply number_sound in E
  end; cbn [TransformSpec.valid] in V; eexists; (split; [first [apply CMatrix | apply CMatrix3d | constructor; eassumption | econstructor; eassumption | constructor]|]);
  cbn [TransformSpec.transform_effect rad]; rewrite ?lp_zero_value; try (replace (0 * PI / 180) with 0 by field); apply same_refl.
Qed.
(** ** Lists *)
Lemma read_calls l f : css_calls l f -> Forall plain l -> exists ts, parse_calls lp_zero l = (ts, []) /\ length ts = length l /\ Forall valid ts /\ same (list_effect ts) f.
Proof.
  induction 1 as [|c f r g C _ IH]; intros F.
  - exists []. split; [reflexivity|]. split; [reflexivity|]. split; [constructor|apply same_refl].
  - apply Forall_cons_iff in F as [P F]. destruct (IH F) as (ts & E & L & V & S). destruct (read_css c f C P) as (t & Et & Vt & St).
    exists (t :: ts). cbn [parse_calls]. rewrite Et, E. split; [reflexivity|]. split; [cbn; congruence|]. split; [constructor; assumption|].
    intros p. cbn. unfold TransformSpec.list_effect in S. rewrite S. apply St.
Qed.
Lemma print_calls ts : Forall valid ts -> exists f, css_calls (map print_transform ts) f /\ same f (list_effect ts).
Proof.
  induction 1 as [|t ts V _ IH]; [exists (fun p => p); split; [constructor|apply same_refl]|].
  destruct IH as (g & C & S). destruct (print_css t V) as (f & C' & S'). exists (fun p => f (g p)). split; [constructor; assumption|].
  intros p. cbn. unfold TransformSpec.list_effect in S. rewrite S. apply S'.
Qed.
Lemma calls_unique l f : css_calls l f -> forall g, css_calls l g -> same f g.
Proof.
  induction 1 as [|c f r g C _ IH]; intros k K p; inversion K as [|c' f' r' g' C' K' E1 E2]; subst; [reflexivity|].
  rewrite (IH g' K'). apply (css_unique c f f' C C').
Qed.
Lemma kept t f : css_text t f -> plain_text t -> exists ts, parse_list lp_zero t = Some (ts, [])
  /\ (exists g, css_text (print_list lp_is_zero ln_is_zero minify ts) g) /\ forall g, css_text (print_list lp_is_zero ln_is_zero minify ts) g -> same_option f g.
Proof.
  intros [|c r f' C]; intros P.
  - exists []. split; [reflexivity|]. split; [exists None; constructor|]. intros g G. inversion G. exact I.
  - destruct (read_calls _ _ C P) as (ts & E & L & V & S). exists ts. unfold parse_list. rewrite E. destruct ts as [|u ts]; [discriminate L|].
    split; [reflexivity|]. destruct (print_calls _ V) as (g & G & S'). split; [exists (Some g); now constructor|].
    intros k K. cbn [print_list map] in K. inversion K as [|c' r' h H E1 E2]; subst. cbn. intros p. rewrite <- S, <- S'. apply (calls_unique _ _ G _ H).
Qed.
Lemma printed ts : Forall valid ts -> (exists g, css_text (print_list lp_is_zero ln_is_zero minify ts) g)
  /\ forall g, css_text (print_list lp_is_zero ln_is_zero minify ts) g -> match ts with [] => g = None | _ => exists h, g = Some h /\ same h (list_effect ts) end.
Proof.
  intros V. destruct (print_calls _ V) as (g & G & S). destruct ts as [|t ts]; cbn [print_list map].
  - split; [exists None; constructor|]. intros k K. now inversion K.
  - split; [exists (Some g); now constructor|]. intros k K. inversion K as [|c' r' h H E1 E2]; subst. exists h. split; [reflexivity|]. intros p.
    rewrite <- S. symmetry. apply (calls_unique _ _ G _ H).
Qed.

(** ** Matrices *)
Hypothesis lp_px_value : forall l x, lp_px l = Some x -> forall b, lp_value l b = x.
Hypothesis ln_px_value : forall l x, ln_px l = Some x -> ln_value l = x.
Lemma radians_some a t : radians a = Some t -> t = rad a.
Proof. unfold radians. rewrite radians_rad. destruct (_ || _); [discriminate|]. congruence. Qed.
Lemma half_cos t : sin (t / 2) * sin (t / 2) = (1 - cos t) / 2.
Proof. replace t with (2 * (t / 2)) at 3 by field. rewrite cos_2a_sin. field. Qed.
Lemma half_sin t : sin (t / 2) * cos (t / 2) = sin t / 2.
Proof. replace t with (2 * (t / 2)) at 3 by field. rewrite sin_2a. field. Qed.
Lemma norm_unit x y z : sqrt (x * x + y * y + z * z) <> 0 ->
  let n := sqrt (x * x + y * y + z * z) in x / n * (x / n) + y / n * (y / n) + z / n * (z / n) = 1.
Proof.
  intros N n. assert (n * n = x * x + y * y + z * z) as E.
  { unfold n. apply sqrt_sqrt. assert (forall a, 0 <= a * a) as P by (intros a; apply Rle_0_sqr). pose proof (P x). pose proof (P y). pose proof (P z). lra. }
  replace (x / n * (x / n) + y / n * (y / n) + z / n * (z / n)) with ((x * x + y * y + z * z) / (n * n)) by (field; exact N).
  rewrite <- E. field. exact N.
Qed.
Lemma rotate_vector x y z t : same (multiply_vector (rotate x y z t)) (turn x y z t).
Proof.
  intros p. unfold rotate, turn, eqb. destruct (Req_EM_T (sqrt (x * x + y * y + z * z)) 0) as [E|N]; [apply vector_identity|]. cbv zeta.
  rewrite half_cos, half_sin. pose proof (norm_unit x y z N) as U. cbv zeta in U. revert U.
  generalize (x / sqrt (x * x + y * y + z * z)) (y / sqrt (x * x + y * y + z * z)) (z / sqrt (x * x + y * y + z * z)). intros a b c U.
  destruct p as [[[px py] pz] pw]. unfold multiply_vector, turn_unit. entries.
  assert (b * b + c * c = 1 - a * a) as -> by lra. assert (a * a + c * c = 1 - b * b) as -> by lra. assert (a * a + b * b = 1 - c * c) as -> by lra.
  repeat apply pair_eq; field.
Qed.
Lemma to_matrix_effect t m : to_matrix lp_px ln_px t = Some m -> far t -> same (multiply_vector m) (transform_effect t).
Proof.
  destruct t; cbn [to_matrix TransformSpec.far TransformSpec.transform_effect]; unfold bind; intros H F;
  repeat match type of H with
  | match ?o with Some _ => _ | None => _ end = Some _ => let E := fresh "E" in destruct o eqn:E; [|discriminate H]
  end; injection H as <-;
  repeat match goal with
  | E : lp_px _ = Some _ |- _ => rewrite (lp_px_value _ _ E); clear E
  | E : ln_px _ = Some _ |- _ => rewrite (ln_px_value _ _ E) in *; clear E
  | E : radians _ = Some _ |- _ => apply radians_some in E; subst
  end;
  try (intros [[[px py] pz] pw]; unfold multiply_vector, translate, scale, skew, to_matrix3d, shift, stretch, slant, flat, solid; entries; rewrite ?tan_0; repeat apply pair_eq; ring);
  try (intros p; rewrite rotate_vector; [apply turn_1z || apply turn_1x || apply turn_1y || reflexivity]).
  intros [[[px py] pz] pw]. unfold multiply_vector, perspective, project. entries. rewrite Rmax_left by lra. repeat apply pair_eq; field; lra.
Qed.
Lemma list_matrix_effect ts : Forall far ts -> forall m m', list_matrix lp_px ln_px ts m = Some m' -> same (multiply_vector m') (fun p => multiply_vector m (list_effect ts p)).
Proof.
  induction 1 as [|t ts F _ IH]; intros m m'; cbn [list_matrix].
  - intros [= ->]. apply same_refl.
  - unfold bind. destruct (to_matrix lp_px ln_px t) as [a|] eqn:E; [|discriminate]. intros H p. rewrite (IH _ _ H), vector_multiply. cbn.
    now rewrite (to_matrix_effect t a E F).
Qed.
Lemma matrix_effect ts m : Forall far ts -> list_matrix lp_px ln_px ts identity = Some m -> same (multiply_vector m) (list_effect ts).
Proof. intros F H p. rewrite (list_matrix_effect ts F _ _ H). apply vector_identity. Qed.

(** ** The individual properties *)
Lemma translate_read l f : css_translate lp_value ln_value width height l f -> exists v, parse_translate lp_zero ln_zero l = Some (v, []) /\ same_option f (translate_effect lp_value ln_value width height v).
Proof.
  intros []; eexists; (split; [reflexivity|]); cbn [same_option translate_effect]; rewrite ?lp_zero_value, ?ln_zero_value; try exact I; apply same_refl.
Qed.
Lemma translate_print v : exists f, css_translate lp_value ln_value width height (print_translate lp_is_zero ln_is_zero v) f /\ same_option f (translate_effect lp_value ln_value width height v).
Proof.
  destruct v as [|x y z]; [eexists; split; [constructor|exact I]|]. cbn [print_translate translate_effect].
  destruct (lp_is_zero y) eqn:Ey, (ln_is_zero z) eqn:Ez; cbn [negb orb]; eexists; (split; [constructor|]); cbn [same_option];
    rewrite ?(lp_is_zero_value y) by assumption; rewrite ?(ln_is_zero_value z) by assumption; apply same_refl.
Qed.
Lemma same_option_sym f g : same_option f g -> same_option g f.
Proof. destruct f, g; cbn; auto. intros H p. now rewrite H. Qed.
Lemma same_option_trans f g h : same_option f g -> same_option g h -> same_option f h.
Proof. destruct f, g, h; cbn; try tauto. intros H K p. now rewrite H. Qed.
(** Everything that is read has one effect, so what is printed has one *)
Lemma kept_once {X Y} (css : Y -> option effect -> Prop) (read : Y -> option (X * list (token LP LN))) (print : X -> Y) (does : X -> option effect) :
  (forall l f, css l f -> exists v, read l = Some (v, []) /\ same_option f (does v)) -> (forall v, exists f, css (print v) f /\ same_option f (does v)) ->
  forall l f, css l f -> exists v, read l = Some (v, []) /\ (exists g, css (print v) g) /\ forall g, css (print v) g -> same_option f g.
Proof.
  intros R P l f H. destruct (R l f H) as (v & E & S). exists v. split; [exact E|]. destruct (P v) as (g & G & S'). split; [now exists g|]. intros g' G'.
  destruct (R _ _ G) as (w & Ew & Sw). destruct (R _ _ G') as (w' & Ew' & Sw'). assert (w' = w) as -> by congruence.
  apply (same_option_trans _ _ _ S). apply (same_option_trans _ _ _ (same_option_sym _ _ S')). apply (same_option_trans _ _ _ Sw). now apply same_option_sym.
Qed.
Lemma translate_kept l f : css_translate lp_value ln_value width height l f -> exists v, parse_translate lp_zero ln_zero l = Some (v, [])
  /\ (exists g, css_translate lp_value ln_value width height (print_translate lp_is_zero ln_is_zero v) g)
  /\ forall g, css_translate lp_value ln_value width height (print_translate lp_is_zero ln_is_zero v) g -> same_option f g.
Proof. apply (kept_once _ _ _ _ translate_read translate_print). Qed.
Lemma rotate_read l f : css_rotate l f -> exists v, @parse_rotate LP LN l = Some (v, []) /\ same_option f (rotate_effect v).
Proof.
  intros [|a|l' f' a A|l' f' a A]; [eexists; split; [reflexivity|exact I]| |destruct A|destruct A]; eexists; (split; [reflexivity|]); intros p; cbn [rotate_effect]; symmetry;
    (apply turn_1z || apply turn_1x || apply turn_1y || reflexivity).
Qed.
Lemma flip_rad c a : rad (print_angle (if ltb c 0 then times a (-1) else a)) = flip c (rad a).
Proof. rewrite print_angle_rad. unfold flip. destruct (ltb c 0); [apply times_rad|reflexivity]. Qed.
Lemma rotate_print v : exists f, css_rotate (@print_rotate LP LN v) f /\ same_option f (rotate_effect v).
Proof.
  destruct v as [|x y z a]; [eexists; split; [constructor|exact I]|]. cbn [print_rotate rotate_effect]. cbv zeta.
  destruct (eqb y 0 && eqb z 0 && negb (eqb x 0)) eqn:E1; [|destruct (eqb x 0 && eqb z 0 && negb (eqb y 0)) eqn:E2; [|destruct (eqb x 0 && eqb y 0 && negb (eqb z 0)) eqn:E3]].
  - rewrite !andb_true_iff, negb_true_iff, !eqb_iff, eqb_false in E1. destruct E1 as [[-> ->] N].
    eexists. split; [apply (CRAxis [KX] turn_x); constructor|]. intros p. rewrite flip_rad. symmetry. now apply turn_about_x.
  - rewrite !andb_true_iff, negb_true_iff, !eqb_iff, eqb_false in E2. destruct E2 as [[-> ->] N].
    eexists. split; [apply (CRAxis [KY] turn_y); constructor|]. intros p. rewrite flip_rad. symmetry. now apply turn_about_y.
  - rewrite !andb_true_iff, negb_true_iff, !eqb_iff, eqb_false in E3. destruct E3 as [[-> ->] N].
    eexists. split; [constructor|]. intros p. rewrite flip_rad. symmetry. now apply turn_about_z.
  - eexists. split; [apply (CRAxis [KArg (ANum x); KArg (ANum y); KArg (ANum z)] (turn x y z)); constructor|]. intros p. now rewrite print_angle_rad.
Qed.
Lemma rotate_kept l f : css_rotate l f -> exists v, @parse_rotate LP LN l = Some (v, []) /\ (exists g, css_rotate (@print_rotate LP LN v) g) /\ forall g, css_rotate (@print_rotate LP LN v) g -> same_option f g.
Proof. apply (kept_once _ _ _ _ rotate_read rotate_print). Qed.
Lemma token_css x a : css_number x a -> exists n, token_number (@KArg LP LN x) = Some n /\ num n = a.
Proof. apply number_read. Qed.
Lemma not_none x a r : css_number x a -> forall l, @KArg LP LN x :: r = l -> match l with KNone :: _ => False | _ => True end.
Proof. intros _ l <-. exact I. Qed.
Lemma scale_read l f : css_scale l f -> exists v, @parse_scale LP LN l = Some (v, []) /\ same_option f (scale_effect v).
Proof.
  intros [|x a A|x a y b A B|x a y b z c A B C]; [eexists; split; [reflexivity|exact I]|..]; destruct A; try destruct B; try destruct C;
    eexists; (split; [reflexivity|]); intros p; reflexivity.
Qed.
Lemma print_number_css n : exists x, @print_number LP LN n = KArg x /\ css_number x (num n).
Proof. destruct n; eexists; (split; [reflexivity|constructor]). Qed.
Lemma number_eqb_num a b : number_eqb a b = true -> num a = num b.
Proof. destruct a, b; cbn; try discriminate; now rewrite eqb_iff. Qed.
Lemma scale_print v : exists f, css_scale (@print_scale LP LN v) f /\ same_option f (scale_effect v).
Proof.
  destruct v as [|x y z]; [eexists; split; [constructor|exact I]|]. cbn [print_scale scale_effect].
  destruct (print_number_css x) as (x' & -> & X). destruct (print_number_css y) as (y' & -> & Y). destruct (print_number_css z) as (z' & -> & Z).
  destruct (number_eqb y x) eqn:E, (eqb (num z) 1) eqn:Ez; cbn [negb orb]; eexists; (split; [constructor; eassumption|]); cbn [same_option];
    rewrite ?(proj1 (eqb_iff _ _) Ez); rewrite ?(number_eqb_num _ _ E); apply same_refl.
Qed.
Lemma scale_kept l f : css_scale l f -> exists v, @parse_scale LP LN l = Some (v, []) /\ (exists g, css_scale (@print_scale LP LN v) g) /\ forall g, css_scale (@print_scale LP LN v) g -> same_option f g.
Proof. apply (kept_once _ _ _ _ scale_read scale_print). Qed.
End Proofs.
