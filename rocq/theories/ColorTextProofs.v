(** * Proofs about the text of colours *)
From Coq Require Import Reals ZArith Bool List String Lra Lia.
From Verif Require Import MatrixModel MatrixProofs ColorSpaceModel ColorSpaceSpec ColorSpaceProofs ColorMixModel ColorMixSpec ColorMixProofs ColorTextModel ColorTextSpec.
Import ListNotations.
Local Open Scope R_scope.
Local Open Scope string_scope.

(** ** calc() *)
Notation rd := read_dialect.
Definition agrees_with (w : ctype) (k : keywords) (look : string -> option ev) : Prop :=
  forall s, (forall x, look s = Some (ENumber x) <-> k s TNumber x) /\ (forall x, look s = Some (EValue x) <-> w <> TNumber /\ k s w x) /\ look s <> Some EMixed.
Lemma no_agrees w : agrees_with w no_keywords no_ident.
Proof. intros s. unfold no_ident, no_keywords. repeat split; try discriminate; intuition. Qed.
Lemma neg_sum x y : nadd x (nmul y (Some (-1))) = lift2 Rminus x y.
Proof. destruct x, y; try reflexivity. cbn. f_equal. lra. Qed.
Lemma div_times x y : nmul x (Some (1 / y)) = option_map (fun v => v / y) x.
Proof. destruct x; [|reflexivity]. cbn. f_equal. unfold Rdiv. ring. Qed.
Lemma nmul_comm x y : nmul x y = nmul y x.
Proof. destruct x, y; try reflexivity. cbn. f_equal. ring. Qed.
Lemma nmul_none x : nmul x None = None.
Proof. destruct x; reflexivity. Qed.
Lemma eval_means w e : forall k look, agrees_with w k look ->
  (forall x, eval w look e = Some (ENumber x) -> means rd k e TNumber x) /\ (forall x, eval w look e = Some (EValue x) -> w <> TNumber /\ means rd k e w x).
Proof.
  induction e; intros k look A; cbn [eval].
  - split; intros y H; inversion H; subst. constructor.
  - destruct w; cbn; split; intros y H; inversion H; subst. split; [discriminate|constructor].
  - destruct w; cbn; split; intros y H; inversion H; subst. split; [discriminate|constructor].
  - destruct (A s) as [B [C _]]. split; intros y H; [constructor; apply B; exact H|]. apply C in H. split; [apply H|constructor; apply H].
  - destruct (IHe1 k look A) as [B1 C1], (IHe2 k look A) as [B2 C2].
    destruct (eval w look e1) as [[x1|x1|]|], (eval w look e2) as [[x2|x2|]|]; cbn; split; intros y H; inversion H; subst.
    + constructor; auto.
    + destruct (C1 _ eq_refl), (C2 _ eq_refl). split; [assumption|]. constructor; auto.
  - destruct (IHe1 k look A) as [B1 C1], (IHe2 k look A) as [B2 C2].
    destruct (eval w look e1) as [[x1|x1|]|], (eval w look e2) as [[x2|x2|]|]; cbn [both option_map ev_scale ev_add]; split; intros y H; inversion H; subst; rewrite neg_sum.
    + constructor; auto.
    + destruct (C1 _ eq_refl), (C2 _ eq_refl). split; [assumption|]. constructor; auto.
  - destruct (IHe1 k look A) as [B1 C1], (IHe2 k look A) as [B2 C2].
    destruct (eval w look e1) as [[x1|x1|]|], (eval w look e2) as [[x2|x2|]|]; cbn [both ev_mul ev_scale]; split; intros y H; inversion H; subst.
    + apply MMul; auto.
    + destruct (C2 _ eq_refl). split; [assumption|]. rewrite nmul_comm. apply MMul; auto.
    + destruct (C1 _ eq_refl). split; [assumption|]. apply MMul'; auto.
  - destruct (IHe1 k look A) as [B1 C1], (IHe2 k look A) as [B2 C2].
    destruct (eval w look e1) as [[x1|x1|]|], (eval w look e2) as [[[x2|]|x2|]|]; cbn [both ev_div]; try (split; intros y H; discriminate H).
    + destruct (eqb x2 0) eqn:E; cbn [ev_scale]; split; intros y H; inversion H; subst. apply eqb_false in E. rewrite div_times. apply MDiv; auto.
    + cbn [ev_scale]. split; intros y H; inversion H; subst. rewrite nmul_none. eapply MDivNone; auto.
    + destruct (eqb x2 0) eqn:E; cbn [ev_scale]; split; intros y H; inversion H; subst. apply eqb_false in E. destruct (C1 _ eq_refl).
      rewrite div_times. split; [assumption|]. apply MDiv; auto.
    + cbn [ev_scale]. split; intros y H; inversion H; subst. destruct (C1 _ eq_refl). split; [assumption|]. rewrite nmul_none. eapply MDivNone; eauto.
    + destruct (eqb x2 0) eqn:E; cbn [ev_scale]; split; intros y H; inversion H.
  - destruct (IHe no_keywords no_ident (no_agrees w)) as [B C]. split; intros y H.
    + apply MNested. apply B. exact H.
    + destruct (C _ H). split; [assumption|]. apply MNested. assumption.
Qed.
Lemma means_eval w k e t x : means rd k e t x -> forall look, agrees_with w k look ->
  (t = TNumber -> eval w look e = Some (ENumber x)) /\ (t = w -> w <> TNumber -> eval w look e = Some (EValue x)).
Proof.
  induction 1; intros look A; cbn [eval].
  - split; intros; [reflexivity|congruence].
  - split; [discriminate|]. intros <- _. reflexivity.
  - split; [discriminate|]. intros <- _. reflexivity.
  - destruct (A s) as [B [C _]]. split; intros; subst; [apply B; assumption|]. apply C. split; assumption.
  - destruct (IHmeans1 look A) as [B1 C1], (IHmeans2 look A) as [B2 C2]. split; intros.
    + rewrite B1, B2 by assumption. reflexivity.
    + rewrite C1, C2 by assumption. reflexivity.
  - destruct (IHmeans1 look A) as [B1 C1], (IHmeans2 look A) as [B2 C2]. split; intros.
    + rewrite B1, B2 by assumption. cbn [both option_map ev_scale ev_add]. rewrite neg_sum. reflexivity.
    + rewrite C1, C2 by assumption. cbn [both option_map ev_scale ev_add]. rewrite neg_sum. reflexivity.
  - destruct (IHmeans1 look A) as [B1 C1], (IHmeans2 look A) as [B2 C2]. rewrite B1 by reflexivity. split; intros.
    + rewrite B2 by assumption. reflexivity.
    + rewrite C2 by assumption. cbn [both ev_mul ev_scale]. rewrite nmul_comm. reflexivity.
  - destruct (IHmeans1 look A) as [B1 C1], (IHmeans2 look A) as [B2 C2]. rewrite B2 by reflexivity. split; intros.
    + rewrite B1 by assumption. reflexivity.
    + rewrite C1 by assumption. reflexivity.
  - destruct (IHmeans1 look A) as [B1 C1], (IHmeans2 look A) as [B2 C2]. rewrite B2 by reflexivity. split; intros.
    + rewrite B1 by assumption. cbn [both ev_div]. rewrite (proj2 (eqb_false y 0)) by assumption. cbn [ev_scale]. rewrite div_times. reflexivity.
    + rewrite C1 by assumption. cbn [both ev_div]. rewrite (proj2 (eqb_false y 0)) by assumption. cbn [ev_scale]. rewrite div_times. reflexivity.
  - destruct (IHmeans1 look A) as [B1 C1], (IHmeans2 look A) as [B2 C2]. rewrite B2 by reflexivity. split; intros.
    + rewrite B1 by assumption. cbn [both ev_div ev_scale]. rewrite nmul_none. reflexivity.
    + rewrite C1 by assumption. cbn [both ev_div ev_scale]. rewrite nmul_none. reflexivity.
  - exact (IHmeans no_ident (no_agrees w)).
  - destruct H.
Qed.
Lemma means_more k e t x : means rd no_keywords e t x -> means rd k e t x.
Proof.
  remember no_keywords as k0 eqn:K. induction 1; subst; try (constructor; auto; fail).
  - destruct H.
  - eapply MDivNone; auto.
Qed.

(** ** Channel keywords *)
Lemma eqb_true s t : String.eqb s t = true -> s = t.
Proof. apply String.eqb_eq. Qed.
Ltac each_name := repeat match goal with |- context [String.eqb ?s ?n] => is_var s; destruct (String.eqb_spec s n); [subst s|] end.
Lemma get_ident_all o s x t : get_ident o s (fun _ => true) = Some (x, t) <-> keywords_of rd (o_space o) (o_comps o) s t x.
Proof.
  destruct o as [sp [x1 x2 x3 a]]. unfold get_ident, keywords_of. cbn [o_space o_comps c1 c2 c3 alpha].
  destruct sp; cbn [channels types names app List.combine In read_dialect hue_type]; rewrite ?andb_true_r; cbn [orb]; each_name;
    cbn [andb orb String.eqb Ascii.eqb Bool.eqb]; (split; [intros H; inversion H; subst; tauto | intros H; repeat destruct H as [H|H]; try contradiction; inversion H; subst; congruence]).
Qed.
Lemma get_ident_allowed o s allowed : allowed TNumber = true ->
  get_ident o s allowed = match get_ident o s (fun _ => true) with Some (x, t) => if allowed t then Some (x, t) else None | None => None end.
Proof.
  intros N. destruct o as [sp [x1 x2 x3 a]]. unfold get_ident. cbn [o_space o_comps c1 c2 c3 alpha].
  destruct sp; cbn [channels types]; rewrite ?N; destruct (allowed TAngle) eqn:AA; each_name;
    cbn [andb orb String.eqb Ascii.eqb Bool.eqb]; rewrite ?N, ?AA; reflexivity.
Qed.
Lemma keyword_types sp c s t x : keywords_of rd sp c s t x -> t <> TPercentage.
Proof.
  unfold keywords_of. destruct sp; cbn [names app List.combine In read_dialect hue_type]; intros H; repeat destruct H as [H|H]; try contradiction; inversion H; subst; discriminate.
Qed.
Lemma keyword_none sp c t x : ~ keywords_of rd sp c "none" t x.
Proof. unfold keywords_of. destruct sp; cbn [names app List.combine In read_dialect hue_type]; intros H; repeat destruct H as [H|H]; try contradiction; inversion H. Qed.
Definition kw_of (o : origin) : keywords := keywords_of rd (o_space o) (o_comps o).
Lemma get_ident_angle o s x t : get_ident o s angle_or_number_type = Some (x, t) <-> kw_of o s t x.
Proof.
  rewrite get_ident_allowed by reflexivity. unfold kw_of. rewrite <- get_ident_all.
  destruct (get_ident o s (fun _ => true)) as [[y u]|] eqn:E; [|split; discriminate].
  assert (U : u <> TPercentage) by (apply get_ident_all in E; eapply keyword_types; exact E).
  destruct u; try contradiction; cbn [angle_or_number_type]; reflexivity.
Qed.
Lemma get_ident_number o s x t : get_ident o s number_or_percentage_type = Some (x, t) <-> t = TNumber /\ kw_of o s TNumber x.
Proof.
  rewrite get_ident_allowed by reflexivity. unfold kw_of. rewrite <- get_ident_all.
  destruct (get_ident o s (fun _ => true)) as [[y u]|] eqn:E; [|split; [discriminate|intros [_ H]; discriminate]].
  assert (U : u <> TPercentage) by (apply get_ident_all in E; eapply keyword_types; exact E).
  destruct u; try contradiction; cbn [number_or_percentage_type].
  - split; [intros H; inversion H; subst; auto | intros [-> H]; exact H].
  - split; [discriminate|]. intros [_ H]. discriminate.
Qed.
Lemma agrees_angle o : agrees_with TAngle (kw_of o) (look_up o angle_or_number_type).
Proof.
  intros s. unfold look_up. pose proof (get_ident_angle o s) as G. destruct (get_ident o s angle_or_number_type) as [[y u]|] eqn:E.
  - assert (U : u <> TPercentage) by (apply get_ident_angle in E; eapply keyword_types; exact E).
    destruct u; [| contradiction |].
    + split; [|split; [|discriminate]].
      * intros x. rewrite <- G. split; intros H; inversion H; reflexivity.
      * intros x. rewrite <- G. split; [discriminate|]. intros [_ H]. discriminate.
    + split; [|split; [|discriminate]].
      * intros x. rewrite <- G. split; discriminate.
      * intros x. rewrite <- G. split; [intros H; inversion H; split; [discriminate|reflexivity] | intros [_ H]; inversion H; reflexivity].
  - split; [|split; [|discriminate]].
    + intros x. rewrite <- G. split; discriminate.
    + intros x. rewrite <- G. split; [discriminate|]. intros [_ H]. discriminate.
Qed.
Lemma agrees_number o : agrees_with TPercentage (kw_of o) (look_up o number_or_percentage_type).
Proof.
  intros s. unfold look_up. pose proof (get_ident_number o s) as G. destruct (get_ident o s number_or_percentage_type) as [[y u]|] eqn:E.
  - destruct (proj1 (G y u) eq_refl) as [-> K]. split; [|split; [|discriminate]].
    + intros x. split; intros H; [inversion H; subst; exact K|]. pose proof (proj2 (G x TNumber) (conj eq_refl H)) as I. inversion I. reflexivity.
    + intros x. split; [discriminate|]. intros [_ H]. exfalso. exact (keyword_types _ _ _ _ _ H eq_refl).
  - split; [|split; [|discriminate]].
    + intros x. split; [discriminate|]. intros H. pose proof (proj2 (G x TNumber) (conj eq_refl H)). discriminate.
    + intros x. split; [discriminate|]. intros [_ H]. exfalso. exact (keyword_types _ _ _ _ _ H eq_refl).
Qed.

(** ** Components *)
Definition fl (t : token) : flat :=
  match t with
  | Ident s => FIdent s | Number x => FNumber x | Percentage x => FPercentage x | Angle x => FAngle x | Calc e => FCalc e
  | CommaToken => FComma | Slash => FSlash | Leaf _ | Fn _ _ => FColor (parse_color t)
  end.
Lemma parse_color_fn name args : parse_color (Fn name args) = parse_function name (map fl args).
Proof. reflexivity. Qed.
Definition kws (o : option origin) : keywords := match o with Some o => kw_of o | None => no_keywords end.
Lemma kws_none o t x : ~ kws o "none" t x.
Proof. destruct o; [apply keyword_none | intros []]. Qed.
Lemma number_ok e x : number_parse (FCalc e) = Ok x <-> means rd no_keywords e TNumber x.
Proof.
  cbn [number_parse]. destruct (eval_means TNumber e _ _ (no_agrees TNumber)) as [B C]. split.
  - destruct (eval TNumber no_ident e) as [[y|y|]|] eqn:E; try discriminate; intros H; inversion H; subst.
    + apply B. reflexivity.
    + destruct (C _ eq_refl) as [D _]. congruence.
  - intros M. rewrite (proj1 (means_eval TNumber _ _ _ _ M _ (no_agrees _)) eq_refl). reflexivity.
Qed.
Lemma number_not_crash t : number_parse t <> Crash.
Proof. destruct t; try discriminate. cbn. destruct (eval _ _ _) as [[]|]; discriminate. Qed.
Lemma angle_not_crash t : angle_parse t <> Crash.
Proof. destruct t; try discriminate. cbn. destruct (eval _ _ _) as [[]|]; discriminate. Qed.
Lemma value_ok w e x (W : w <> TNumber) : eval w no_ident e = Some (EValue x) <-> means rd no_keywords e w x.
Proof.
  destruct (eval_means w e _ _ (no_agrees w)) as [B C]. split; [intros H; apply C; exact H|].
  intros M. exact (proj2 (means_eval w _ _ _ _ M _ (no_agrees _)) eq_refl W).
Qed.
Lemma percentage_ok e x : percentage_parse (FCalc e) = Ok x <-> means rd no_keywords e TPercentage x.
Proof.
  rewrite <- value_ok by discriminate. cbn [percentage_parse]. destruct (eval TPercentage no_ident e) as [[y|y|]|]; split; intros H; inversion H; reflexivity.
Qed.
Lemma angle_ok e x : angle_parse (FCalc e) = Ok x <-> means rd no_keywords e TAngle x.
Proof.
  rewrite <- value_ok by discriminate. cbn [angle_parse]. destruct (eval TAngle no_ident e) as [[y|y|]|]; split; intros H; inversion H; reflexivity.
Qed.
(** A calc() has one type *)
Lemma one_type k e x y w : w <> TNumber -> means rd k e TNumber x -> means rd k e w y -> agrees_with w k (fun _ => None) \/ True -> k = no_keywords -> False.
Proof.
  intros W A B _ ->. pose proof (proj1 (means_eval w _ _ _ _ A _ (no_agrees _)) eq_refl) as P.
  pose proof (proj2 (means_eval w _ _ _ _ B _ (no_agrees _)) eq_refl W) as Q. congruence.
Qed.
Lemma number_fails e x w : w <> TNumber -> means rd no_keywords e w x -> number_parse (FCalc e) = Fail.
Proof.
  intros W M. destruct (number_parse (FCalc e)) eqn:E; [|reflexivity|destruct (number_not_crash _ E)].
  apply number_ok in E. exfalso. eapply one_type; eauto.
Qed.
Lemma angle_fails e x : means rd no_keywords e TNumber x -> angle_parse (FCalc e) = Fail.
Proof.
  intros M. destruct (angle_parse (FCalc e)) eqn:E; [|reflexivity|destruct (angle_not_crash _ E)].
  apply angle_ok in E. exfalso. eapply one_type; [|exact M|exact E|auto|reflexivity]. discriminate.
Qed.
Definition np_means (k : keywords) (t : token) (v : either) : Prop :=
  match v with AsNumber x => value_of rd k t TNumber x \/ t = Ident "none" /\ x = None | AsValue x => value_of rd k t TPercentage x end.
Definition an_means (k : keywords) (t : token) (v : either) : Prop :=
  match v with AsNumber x => value_of rd k t TNumber x \/ t = Ident "none" /\ x = None | AsValue x => value_of rd k t TAngle x end.
Lemma relative_np o t v : relative TPercentage number_or_percentage_type o (fl t) = Ok v -> np_means (kw_of o) t v.
Proof.
  destruct t; cbn [fl relative]; try discriminate.
  - destruct (get_ident o s number_or_percentage_type) as [[x u]|] eqn:E; [|discriminate]. apply get_ident_number in E. destruct E as [-> K].
    intros H; inversion H; subst. left. constructor. exact K.
  - destruct (eval_means TPercentage e _ _ (agrees_number o)) as [B C]. destruct (eval _ _ e) as [[x|x|]|]; try discriminate; intros H; inversion H; subst; cbn.
    + left. constructor. apply B. reflexivity.
    + constructor. apply C. reflexivity.
Qed.
Lemma relative_an o t v : relative TAngle angle_or_number_type o (fl t) = Ok v -> an_means (kw_of o) t v.
Proof.
  destruct t; cbn [fl relative]; try discriminate.
  - destruct (get_ident o s angle_or_number_type) as [[x u]|] eqn:E; [|discriminate]. apply get_ident_angle in E.
    destruct u; intros H; inversion H; subst; cbn.
    + left. constructor. exact E.
    + destruct (keyword_types _ _ _ _ _ E eq_refl).
    + constructor. exact E.
  - destruct (eval_means TAngle e _ _ (agrees_angle o)) as [B C]. destruct (eval _ _ e) as [[x|x|]|]; try discriminate; intros H; inversion H; subst; cbn.
    + left. constructor. apply B. reflexivity.
    + constructor. apply C. reflexivity.
Qed.
Lemma value_more k t ty x : value_of rd no_keywords t ty x -> value_of rd k t ty x.
Proof. inversion 1; subst; try constructor. - apply means_more. assumption. - destruct H0. Qed.
Lemma none_ok t x : none_parse (fl t) = Ok x -> t = Ident "none" /\ x = None.
Proof. destruct t; try discriminate. cbn. destruct (String.eqb_spec s "none"); [|discriminate]. intros H; inversion H; subst. auto. Qed.
Lemma number_sound t x : number_parse (fl t) = Ok x -> value_of rd no_keywords t TNumber x.
Proof.
  destruct t; try discriminate; [intros H; inversion H; constructor|]. intros H. apply (proj1 (number_ok _ _)) in H. constructor. exact H.
Qed.
Lemma percentage_sound t x : percentage_parse (fl t) = Ok x -> value_of rd no_keywords t TPercentage x.
Proof.
  destruct t; try discriminate; [intros H; inversion H; constructor|]. intros H. apply (proj1 (percentage_ok _ _)) in H. constructor. exact H.
Qed.
Lemma angle_sound t x : angle_parse (fl t) = Ok x -> value_of rd no_keywords t TAngle x.
Proof.
  destruct t; try discriminate; [intros H; inversion H; constructor|]. intros H. apply (proj1 (angle_ok _ _)) in H. constructor. exact H.
Qed.
Lemma number_complete t x : value_of rd no_keywords t TNumber x -> number_parse (fl t) = Ok x.
Proof. inversion 1; subst; [reflexivity| |destruct H0]. apply number_ok. assumption. Qed.
Lemma percentage_complete t x : value_of rd no_keywords t TPercentage x -> percentage_parse (fl t) = Ok x.
Proof. inversion 1; subst; [reflexivity| |destruct H0]. apply percentage_ok. assumption. Qed.
Lemma np_sound o t v : number_or_percentage o (fl t) = Ok v -> np_means (kws o) t v.
Proof.
  unfold number_or_percentage. destruct (relative_if _ _ o (fl t)) eqn:E; cbn [or_else]; [|clear E|discriminate].
  - intros H; inversion H; subst. destruct o as [o|]; [|discriminate]. apply relative_np. exact E.
  - destruct (number_parse (fl t)) eqn:E; cbn [bind or_else]; [|clear E|discriminate].
    + intros H; inversion H; subst. left. apply value_more. apply number_sound. exact E.
    + destruct (percentage_parse (fl t)) eqn:E; cbn [bind or_else]; [|clear E|discriminate].
      * intros H; inversion H; subst. cbn. apply value_more. apply percentage_sound. exact E.
      * destruct (none_parse (fl t)) eqn:E; cbn [bind]; try discriminate. intros H; inversion H; subst. right. apply none_ok. exact E.
Qed.
Lemma an_sound o t v : angle_or_number o (fl t) = Ok v -> an_means (kws o) t v.
Proof.
  unfold angle_or_number. destruct (relative_if _ _ o (fl t)) eqn:E; cbn [or_else]; [|clear E|discriminate].
  - intros H; inversion H; subst. destruct o as [o|]; [|discriminate]. apply relative_an. exact E.
  - destruct (angle_parse (fl t)) eqn:E; cbn [bind or_else]; [|clear E|discriminate].
    + intros H; inversion H; subst. cbn. apply value_more. apply angle_sound. exact E.
    + destruct (number_parse (fl t)) eqn:E; cbn [bind or_else]; [|clear E|discriminate].
      * intros H; inversion H; subst. left. apply value_more. apply number_sound. exact E.
      * destruct (none_parse (fl t)) eqn:E; cbn [bind]; try discriminate. intros H; inversion H; subst. right. apply none_ok. exact E.
Qed.
Lemma np_complete o t v : np_means (kws o) t v -> number_or_percentage o (fl t) = Ok v.
Proof.
  unfold number_or_percentage. destruct o as [o|]; cbn [kws relative_if or_else].
  - destruct v as [x|x]; cbn [np_means].
    + intros [H|[-> ->]].
      * inversion H; subst; cbn [fl relative or_else].
        -- reflexivity.
        -- rewrite (proj1 (means_eval TPercentage _ _ _ _ H0 _ (agrees_number o)) eq_refl). reflexivity.
        -- rewrite (proj2 (get_ident_number o s x TNumber)) by auto. reflexivity.
      * cbn [fl relative]. destruct (get_ident o "none" number_or_percentage_type) as [[y u]|] eqn:E.
        -- apply get_ident_number in E. destruct E as [_ E]. destruct (keyword_none _ _ _ _ E).
        -- reflexivity.
    + intros H. inversion H; subst; cbn [fl relative or_else].
      * reflexivity.
      * rewrite (proj2 (means_eval TPercentage _ _ _ _ H0 _ (agrees_number o)) eq_refl) by discriminate. reflexivity.
      * destruct (keyword_types _ _ _ _ _ H0 eq_refl).
  - destruct v as [x|x]; cbn [np_means].
    + intros [H|[-> ->]]; [rewrite (number_complete _ _ H)|]; reflexivity.
    + intros H. inversion H; subst; [reflexivity| |destruct H0]. cbn [fl]. rewrite (number_fails _ _ TPercentage ltac:(discriminate) H0).
      cbn [bind or_else]. rewrite (proj2 (percentage_ok _ _) H0). reflexivity.
Qed.
Lemma an_complete o t v : an_means (kws o) t v -> angle_or_number o (fl t) = Ok v.
Proof.
  unfold angle_or_number. destruct o as [o|]; cbn [kws relative_if or_else].
  - destruct v as [x|x]; cbn [an_means].
    + intros [H|[-> ->]].
      * inversion H; subst; cbn [fl relative or_else].
        -- reflexivity.
        -- rewrite (proj1 (means_eval TAngle _ _ _ _ H0 _ (agrees_angle o)) eq_refl). reflexivity.
        -- rewrite (proj2 (get_ident_angle o s x TNumber)) by auto. reflexivity.
      * cbn [fl relative]. destruct (get_ident o "none" angle_or_number_type) as [[y u]|] eqn:E.
        -- apply get_ident_angle in E. destruct (keyword_none _ _ _ _ E).
        -- reflexivity.
    + intros H. inversion H; subst; cbn [fl relative or_else].
      * reflexivity.
      * rewrite (proj2 (means_eval TAngle _ _ _ _ H0 _ (agrees_angle o)) eq_refl) by discriminate. reflexivity.
      * rewrite (proj2 (get_ident_angle o s x TAngle)) by auto. reflexivity.
  - destruct v as [x|x]; cbn [an_means].
    + intros [H|[-> ->]]; [|reflexivity]. inversion H; subst; [reflexivity| |destruct H0]. cbn [fl]. rewrite (angle_fails _ _ H0).
      cbn [bind or_else]. rewrite (proj2 (number_ok _ _) H0). reflexivity.
    + intros H. inversion H; subst; [reflexivity| |destruct H0]. cbn [fl]. rewrite (proj2 (angle_ok _ _) H0). reflexivity.
Qed.
Lemma comp_iff o basis t v : comp o basis (fl t) = Ok v <-> component rd (kws o) basis t v.
Proof.
  unfold comp. split.
  - destruct (number_or_percentage o (fl t)) eqn:E; cbn [bind]; try discriminate. apply np_sound in E. intros H; inversion H; subst.
    destruct a as [x|x]; cbn [np_means] in E.
    + destruct E as [E|[-> ->]]; [apply CNumber; exact E | apply CNone].
    + replace (nmul x (Some basis)) with (option_map (fun v => v * basis) x) by (destruct x; reflexivity). apply CPercentage. exact E.
  - inversion 1; subst.
    + rewrite (np_complete o t (AsNumber v)) by (left; assumption). reflexivity.
    + rewrite (np_complete o t (AsValue x)) by assumption. destruct x; reflexivity.
    + rewrite (np_complete o (Ident "none") (AsNumber None)) by (right; auto). reflexivity.
Qed.
Lemma hue_iff o t v : hue o (fl t) = Ok v <-> hue_component rd (kws o) t v.
Proof.
  unfold hue. split.
  - destruct (angle_or_number o (fl t)) eqn:E; cbn [bind]; try discriminate. apply an_sound in E. intros H; inversion H; subst.
    destruct a as [x|x]; cbn [an_means] in E.
    + destruct E as [E|[-> ->]]; [apply HNumber; exact E | apply HNone].
    + apply HAngle. exact E.
  - inversion 1; subst.
    + rewrite (an_complete o t (AsNumber v)) by (left; assumption). reflexivity.
    + rewrite (an_complete o t (AsValue v)) by assumption. reflexivity.
    + rewrite (an_complete o (Ident "none") (AsNumber None)) by (right; auto). reflexivity.
Qed.

(** ** Clamping and rounding *)
Lemma clamp_is x lo hi : lo <= hi -> clamp x lo hi = Rmax lo (Rmin x hi).
Proof.
  intros L. unfold clamp, Rmax, Rmin. destruct (ltb x lo) eqn:A; [apply ltb_iff in A|apply ltb_false in A].
  - destruct (Rle_dec x hi); destruct (Rle_dec lo _); lra.
  - destruct (ltb hi x) eqn:B; [apply ltb_iff in B|apply ltb_false in B]; destruct (Rle_dec x hi); destruct (Rle_dec lo _); lra.
Qed.
Lemma clamped_iff lo hi v w : lo <= hi -> clamped lo hi v w <-> w = nclamp v lo hi.
Proof.
  intros L. destruct v as [x|], w as [y|]; cbn; try (split; [contradiction|discriminate]); try tauto.
  rewrite clamp_is by exact L. split; [intros ->; reflexivity | intros H; inversion H; reflexivity].
Qed.
Lemma raised_iff v w : raised v w <-> w = not_negative v.
Proof.
  destruct v as [x|], w as [y|]; cbn; try (split; [contradiction|discriminate]); try tauto.
  split.
  - intros [A B]. f_equal. unfold Rmax. destruct (Rle_dec 0 x); [apply A; assumption | apply B; lra].
  - intros H. injection H as ->. unfold Rmax. destruct (Rle_dec 0 x); split; lra.
Qed.
Lemma Int_part_IZR n : Int_part (IZR n) = n.
Proof. unfold Int_part. rewrite <- (tech_up (IZR n) (n + 1)); [lia| |]; rewrite plus_IZR; lra. Qed.
Lemma int_part_bounds x : IZR (Int_part x) <= x < IZR (Int_part x) + 1.
Proof. destruct (base_Int_part x). lra. Qed.
Lemma round_bounds x : 0 <= x -> round x = IZR (Int_part (x + 1 / 2)) /\ IZR (Int_part (x + 1 / 2)) - 1 / 2 <= x < IZR (Int_part (x + 1 / 2)) + 1 / 2.
Proof.
  intros X. unfold round. rewrite (proj2 (ltb_false x 0)) by lra. split; [reflexivity|]. pose proof (int_part_bounds (x + 1 / 2)). lra.
Qed.
Lemma int_bound x y : IZR x < IZR y + 1 -> (x <= y)%Z.
Proof. intros H. rewrite <- plus_IZR in H. apply lt_IZR in H. lia. Qed.
(** Rounding and clamping gives the nearest byte *)
Lemma channel_byte x : exists n, clamp (round x) 0 255 = IZR n /\ nearest_byte x n /\ (0 <= n <= 255)%Z.
Proof.
  destruct (Rlt_le_dec x 0) as [X|X].
  - assert (R0 : round x <= 0).
    { unfold round. rewrite (proj2 (ltb_iff x 0)) by lra. unfold floor.
      pose proof (int_part_bounds (- x + 1 / 2)). assert (0 <= Int_part (- x + 1 / 2))%Z by (apply int_bound; lra).
      apply IZR_le in H0. lra. }
    exists 0%Z. split; [|split; [|lia]].
    + rewrite clamp_is by lra. unfold Rmax, Rmin. destruct (Rle_dec (round x) 255); destruct (Rle_dec 0 _); lra.
    + split; [reflexivity|]. split; intros; exfalso; lra.
  - destruct (round_bounds x X) as [E B]. set (n := Int_part (x + 1 / 2)) in *. rewrite E.
    assert (N : (0 <= n)%Z) by (apply int_bound; lra). destruct (Rlt_le_dec 255 x) as [Y|Y].
    + exists 255%Z. assert (M : (255 <= n)%Z) by (apply int_bound; lra). apply IZR_le in M. split; [|split; [|lia]].
      * rewrite clamp_is by lra. unfold Rmax, Rmin. destruct (Rle_dec (IZR n) 255); destruct (Rle_dec 0 _); lra.
      * split; [intros; exfalso; lra|]. split; [reflexivity|]. intros; exfalso; lra.
    + exists n. assert (M : (n <= 255)%Z) by (apply int_bound; lra). split; [|split; [|lia]].
      * apply IZR_le in N, M. rewrite clamp_is by lra. unfold Rmax, Rmin. destruct (Rle_dec (IZR n) 255); destruct (Rle_dec 0 _); lra.
      * split; [intros; exfalso; lra|]. split; [intros; exfalso; lra|]. intros _. exact B.
Qed.
Lemma nearest_byte_fun x n m : nearest_byte x n -> nearest_byte x m -> n = m.
Proof.
  intros [A [B C]] [A' [B' C']]. destruct (Rlt_le_dec x 0); [rewrite A, A' by assumption; reflexivity|].
  destruct (Rlt_le_dec 255 x); [rewrite B, B' by assumption; reflexivity|].
  destruct (C ltac:(lra)), (C' ltac:(lra)). assert (n <= m)%Z by (apply int_bound; lra). assert (m <= n)%Z by (apply int_bound; lra). lia.
Qed.
Lemma channel_iff v w : nearest_num v w <-> w = channel v.
Proof.
  destruct v as [x|], w as [y|]; cbn; try (split; [contradiction|discriminate]); try tauto.
  destruct (channel_byte x) as [n [E [B _]]]. rewrite E. split.
  - intros [m [-> B']]. rewrite (nearest_byte_fun _ _ _ B B'). reflexivity.
  - intros H. injection H as ->. eauto.
Qed.
Lemma floor_256 x : nearest_byte x (clamp_floor_256 x).
Proof.
  destruct (channel_byte x) as [n [E [B N]]]. unfold clamp_floor_256.
  replace (Rmin (Rmax (round x) 0) 255) with (clamp (round x) 0 255).
  - rewrite E, Int_part_IZR. exact B.
  - rewrite clamp_is by lra. unfold Rmax, Rmin. repeat match goal with |- context[Rle_dec ?a ?b] => match a with context[Rle_dec] => fail 1 | _ => match b with context[Rle_dec] => fail 1 | _ => destruct (Rle_dec a b) end end end; lra.
Qed.
Lemma byte_iff x n : nearest_byte x n <-> n = clamp_floor_256 x.
Proof. split; [intros H; exact (nearest_byte_fun _ _ _ H (floor_256 x)) | intros ->; apply floor_256]. Qed.
Lemma integer_byte n : (0 <= n <= 255)%Z -> nearest_byte (IZR n) n.
Proof. intros [A B]. apply IZR_le in A, B. split; [lra|]. split; lra. Qed.
Lemma rgb_color_iff legacy r g b a c : rgb_color r g b a c <-> c = finish_rgb legacy (channel r) (channel g) (channel b) a.
Proof.
  split.
  - inversion 1; subst.
    + cbn [channel option_map]. unfold finish_rgb.
      destruct (channel_byte r0) as [n1 [E1 [B1 N1]]], (channel_byte g0) as [n2 [E2 [B2 N2]]], (channel_byte b0) as [n3 [E3 [B3 N3]]].
      rewrite E1, E2, E3, !Int_part_IZR.
      assert (U : forall n, (0 <= n <= 255)%Z -> clamp_unit (IZR n / 255) = n).
      { intros n N. symmetry. unfold clamp_unit. apply byte_iff. replace (IZR n / 255 * 255) with (IZR n) by field. apply integer_byte. exact N. }
      rewrite !U by assumption.
      rewrite (nearest_byte_fun _ _ _ H0 B1), (nearest_byte_fun _ _ _ H1 B2), (nearest_byte_fun _ _ _ H2 B3).
      replace (clamp_unit a0) with a'; [destruct legacy; reflexivity|]. unfold clamp_unit. apply byte_iff. rewrite Rmult_comm. exact H3.
    + apply channel_iff in H1, H2, H3. subst. destruct H0 as [->|[->|[->| ->]]]; cbn [channel option_map finish_rgb]; try reflexivity;
        destruct r; try reflexivity; destruct g; try reflexivity; destruct b; reflexivity.
  - intros ->. unfold finish_rgb. destruct r as [r|], g as [g|], b as [b|], a as [a|]; cbn [channel option_map];
      try (apply RgbMissing; [tauto | apply channel_iff; reflexivity ..]).
    destruct (channel_byte r) as [n1 [E1 [B1 N1]]], (channel_byte g) as [n2 [E2 [B2 N2]]], (channel_byte b) as [n3 [E3 [B3 N3]]].
    rewrite E1, E2, E3, !Int_part_IZR.
    assert (U : forall n, (0 <= n <= 255)%Z -> clamp_unit (IZR n / 255) = n).
    { intros n N. symmetry. unfold clamp_unit. apply byte_iff. replace (IZR n / 255 * 255) with (IZR n) by field. apply integer_byte. exact N. }
    rewrite !U by assumption. destruct legacy; constructor; try assumption; rewrite Rmult_comm; apply floor_256.
Qed.
Lemma hue_color_iff s h x y a c : hue_color s h x y a c <-> c = finish_hue s (Comps h x y a).
Proof.
  split.
  - inversion 1; subst; unfold finish_hue; cbn [c1 c2 c3 alpha is_none orb].
    + reflexivity.
    + destruct H0 as [->|[->|[->| ->]]]; cbn [is_none]; rewrite ?orb_true_r; reflexivity.
  - intros ->. unfold finish_hue. cbn [c1 c2 c3 alpha]. destruct h, x, y, a; cbn [is_none orb]; try (apply HueMissing; tauto). apply HueBytes.
Qed.

(** ** The notations *)
Lemma bind_ok {A B} (x : out A) (f : A -> out B) b : bind x f = Ok b <-> exists a, x = Ok a /\ f a = Ok b.
Proof. destruct x; cbn; (split; [intros H; try discriminate; eauto | intros [y [E F]]; inversion E; subst; assumption]). Qed.
Lemma next_ok {A} (f : flat -> out A) l a r : next f l = Ok (a, r) <-> exists t, l = t :: r /\ f t = Ok a.
Proof.
  destruct l as [|t l]; cbn; [split; [discriminate | intros [t [H _]]; discriminate]|]. rewrite bind_ok. split.
  - intros [b [E F]]. inversion F; subst. eauto.
  - intros [u [E F]]. inversion E; subst. eauto.
Qed.
Lemma next_map {A} (f : flat -> out A) args a r : next f (map fl args) = Ok (a, r) <-> exists t l, args = t :: l /\ r = map fl l /\ f (fl t) = Ok a.
Proof.
  rewrite next_ok. split.
  - intros [t [E F]]. apply map_eq_cons in E. destruct E as [u [l [-> [<- <-]]]]. eauto.
  - intros [t [l [-> [-> F]]]]. cbn. eauto.
Qed.
Lemma comma_map args r : comma (map fl args) = Ok r <-> exists l, args = CommaToken :: l /\ r = map fl l.
Proof.
  split.
  - destruct args as [|t l]; [discriminate|]. destruct t; try discriminate. cbn. intros H; inversion H. eauto.
  - intros [l [-> ->]]. reflexivity.
Qed.
Definition src_of (o : option origin) : source := Source (kws o) (Some 1) (is_none o).
Lemma map_nil l : [] = map fl l -> l = [].
Proof. destruct l; [reflexivity|discriminate]. Qed.
Lemma alpha_iff o args a : parse_alpha o (map fl args) = Ok (a, []) <-> alpha_text rd (src_of o) args a.
Proof.
  split.
  - assert (D : parse_alpha o (map fl args) = Ok (a, []) -> args = [] /\ a = Some 1 \/ exists l, args = Slash :: l).
    { destruct args as [|t l]; [intros H; inversion H; auto|]. destruct t; cbn; try discriminate. eauto. }
    intros H. destruct (D H) as [[-> ->]|[l ->]]; [apply (AlphaOmitted rd (src_of o))|]. cbn [map fl parse_alpha] in H.
    apply bind_ok in H. destruct H as [[v r] [N E]]. inversion E; subst. cbn [snd] in *. subst. apply next_map in N.
    destruct N as [t [l' [-> [R C]]]]. apply map_nil in R. subst. apply (AlphaGiven rd (src_of o) t v); [apply comp_iff; exact C | apply clamped_iff; [lra|reflexivity]].
  - inversion 1; subst; [reflexivity|]. cbn [map fl parse_alpha]. apply bind_ok. exists (v, []). split.
    + apply (next_map _ [t]). exists t, []. repeat split. apply comp_iff. assumption.
    + apply clamped_iff in H1; [|lra]. subst. reflexivity.
Qed.
Lemma old_alpha_iff args a : parse_legacy_alpha None (map fl args) = Ok (a, []) <-> old_alpha_text rd args a.
Proof.
  split.
  - destruct args as [|t l]; [intros H; inversion H; constructor|]. intros H.
    change (bind (comma (map fl (t :: l))) (fun l => x <- next (comp None 1) l ;; Ok (nclamp (fst x) 0 1, snd x)) = Ok (a, [])) in H.
    apply bind_ok in H. destruct H as [r [C H]]. apply comma_map in C. destruct C as [l' [C ->]]. injection C as -> ->.
    apply bind_ok in H. destruct H as [[v r] [N E]]. inversion E; subst. cbn [snd] in *. subst. apply next_map in N.
    destruct N as [u [l2 [-> [R C]]]]. apply map_nil in R. subst. apply (OldAlphaGiven rd u v); [apply (comp_iff None); exact C | intros _; exact I | apply clamped_iff; [lra|reflexivity]].
  - inversion 1; subst; [reflexivity|]. cbn [map fl parse_legacy_alpha comma bind]. apply bind_ok. exists (v, []). split.
    + apply (next_map _ [t]). exists t, []. repeat split. apply comp_iff. assumption.
    + apply clamped_iff in H2; [|lra]. subst. reflexivity.
Qed.
Ltac inv_next H v t l F := apply bind_ok in H; let r := fresh "r" in let N := fresh "N" in destruct H as [[v r] [N H]]; cbn [fst snd] in H; apply next_map in N; let R := fresh "R" in destruct N as [t [l [? [R F]]]]; subst.
Lemma lab_sound s lb ab o args c : In (s, (lb, ab)) lab_bases -> parse_lab s lb ab o (map fl args) = Ok (c, []) -> body rd (src_of o) s args c.
Proof.
  intros I H. unfold parse_lab in H. inv_next H x t1 l1 F1. inv_next H y t2 l2 F2. inv_next H z t3 l3 F3.
  apply bind_ok in H. destruct H as [[a r] [A H]]. cbn [fst snd] in H. inversion H; subst. apply alpha_iff in A.
  apply (LabText rd (src_of o) s lb ab t1 t2 t3 l3 x); [exact I | apply comp_iff; exact F1 | apply raised_iff; reflexivity | apply comp_iff; exact F2 | apply comp_iff; exact F3 | exact A].
Qed.
Ltac do_next t := apply bind_ok; eexists; split; [apply next_ok; eexists; split; [cbn [map]; reflexivity|] | cbn [fst snd]].
Lemma lab_complete s lb ab o args c : In (s, (lb, ab)) lab_bases -> body rd (src_of o) s args c -> parse_lab s lb ab o (map fl args) = Ok (c, []).
Proof.
  intros I H. destruct H;
    try (exfalso; cbn in I; try (cbn in H); repeat match goal with A : _ \/ _ |- _ => destruct A as [A|A] end; try contradiction;
         repeat match goal with A : (_, _) = (_, _) |- _ => inversion A; clear A; subst end; discriminate).
  - assert (E : (lb0, ab0) = (lb, ab)).
    { cbn in I, H. repeat match goal with A : _ \/ _ |- _ => destruct A as [A|A] end; try contradiction; congruence. }
    injection E as -> ->. unfold parse_lab. do_next t1; [apply comp_iff; eassumption|]. do_next t2; [apply comp_iff; eassumption|].
    do_next t3; [apply comp_iff; eassumption|]. apply bind_ok. eexists. split; [apply alpha_iff; eassumption|]. cbn [fst snd].
    apply raised_iff in H1. subst. reflexivity.
Qed.
Lemma lch_sound s lb cb o args c : In (s, (lb, cb)) lch_bases -> parse_lch s lb cb o (map fl args) = Ok (c, []) -> body rd (src_of (option_map turn o)) s args c.
Proof.
  intros I H. unfold parse_lch in H. inv_next H x t1 l1 F1. inv_next H y t2 l2 F2. inv_next H z t3 l3 F3.
  apply bind_ok in H. destruct H as [[a r] [A H]]. cbn [fst snd] in H. inversion H; subst. apply alpha_iff in A.
  apply (LchText rd (src_of (option_map turn o)) s lb cb t1 t2 t3 l3 x _ y); [exact I | apply comp_iff; exact F1 | apply raised_iff; reflexivity | apply comp_iff; exact F2 | apply raised_iff; reflexivity | apply hue_iff; exact F3 | exact A].
Qed.
Lemma lch_complete s lb cb o args c : In (s, (lb, cb)) lch_bases -> body rd (src_of (option_map turn o)) s args c -> parse_lch s lb cb o (map fl args) = Ok (c, []).
Proof.
  intros I H. destruct H;
    try (exfalso; cbn in I; try (cbn in H); repeat match goal with A : _ \/ _ |- _ => destruct A as [A|A] end; try contradiction;
         repeat match goal with A : (_, _) = (_, _) |- _ => inversion A; clear A; subst end; discriminate).
  - assert (E : (lb0, cb0) = (lb, cb)).
    { cbn in I, H. repeat match goal with A : _ \/ _ |- _ => destruct A as [A|A] end; try contradiction; congruence. }
    injection E as -> ->. unfold parse_lch. do_next t1; [apply comp_iff; eassumption|]. do_next t2; [apply comp_iff; eassumption|].
    do_next t3; [apply hue_iff; eassumption|]. apply bind_ok. eexists. split; [apply alpha_iff; eassumption|]. cbn [fst snd].
    apply raised_iff in H1, H3. subst. reflexivity.
Qed.
Lemma hue_not_comma o v : hue o (fl CommaToken) <> Ok v.
Proof. intros H. apply hue_iff in H. inversion H; subst; match goal with H : value_of _ _ _ _ _ |- _ => inversion H end. Qed.
Lemma comp_not_comma o b v : comp o b (fl CommaToken) <> Ok v.
Proof. intros H. apply comp_iff in H. inversion H; subst; match goal with H : value_of _ _ _ _ _ |- _ => inversion H end. Qed.
Lemma component_not_comma k b v : ~ component rd k b CommaToken v.
Proof. intros H. inversion H; subst; match goal with H : value_of _ _ _ _ _ |- _ => inversion H end. Qed.
Lemma percent_iff t v : component rd no_keywords 100 t (Some v) <-> percent_only rd t (Some v).
Proof.
  split.
  - intros H. remember (Some v) as w. destruct H; [right; split; [exact I|assumption] | left; exists x; split; [assumption|reflexivity] | discriminate].
  - intros [[x [V E]]|[_ V]]; [rewrite E; apply CPercentage; exact V | apply CNumber; exact V].
Qed.
Lemma is_none_some {A} (x : option A) : is_none x = false -> exists v, x = Some v.
Proof. destruct x; [eauto|discriminate]. Qed.
Lemma starts_map l : starts_with_comma (map fl l) = true -> exists l', l = CommaToken :: l'.
Proof. destruct l as [|t l]; [discriminate|]. destruct t; try discriminate. eauto. Qed.
Lemma hsl_sound s legacy o args c : In s [HSL; HWB] -> (legacy = true -> s = HSL) -> parse_hsl_hwb s legacy o (map fl args) = Ok (c, []) -> body rd (src_of o) s args c.
Proof.
  intros I L H. unfold parse_hsl_hwb in H. inv_next H h t1 l1 F1.
  destruct (legacy && is_none o && negb (is_none h) && starts_with_comma (map fl l1)) eqn:E.
  - apply andb_prop in E. destruct E as [E S]. apply andb_prop in E. destruct E as [E Hh]. apply andb_prop in E. destruct E as [-> O].
    rewrite (L eq_refl) in *. apply negb_true_iff, is_none_some in Hh. destruct Hh as [h' ->]. apply starts_map in S. destruct S as [l2 ->].
    cbn [map fl comma bind] in H. inv_next H y t2 l3 F2. apply bind_ok in H. destruct H as [r [C H]]. apply comma_map in C. destruct C as [l4 [-> ->]].
    inv_next H z t3 l5 F3. destruct (is_none y || is_none z) eqn:N; [discriminate|]. apply orb_false_elim in N. destruct N as [Ny Nz].
    apply is_none_some in Ny, Nz. destruct Ny as [y' ->], Nz as [z' ->]. destruct o; [discriminate|].
    apply bind_ok in H. destruct H as [[a r] [A H]]. cbn [fst snd] in H. inversion H; subst. apply old_alpha_iff in A.
    eapply (HslOld rd (src_of None) t1 t2 t3 l5 h' y' _ z' _ a); [reflexivity | apply (hue_iff None); exact F1 | apply percent_iff, (comp_iff None); exact F2 | apply clamped_iff; [lra|reflexivity]
      | apply percent_iff, (comp_iff None); exact F3 | apply clamped_iff; [lra|reflexivity] | exact A | apply hue_color_iff; reflexivity].
  - inv_next H y t2 l2 F2. inv_next H z t3 l3 F3. apply bind_ok in H. destruct H as [[a r] [A H]]. cbn [fst snd] in H. inversion H; subst. apply alpha_iff in A.
    eapply (HueText rd (src_of o) s t1 t2 t3 l3 h y _ z _ a); [exact I | apply hue_iff; exact F1 | apply comp_iff; exact F2 | apply clamped_iff; [lra|reflexivity]
      | apply comp_iff; exact F3 | apply clamped_iff; [lra|reflexivity] | exact A | apply hue_color_iff; reflexivity].
Qed.
Lemma hsl_complete s legacy o args c : In s [HSL; HWB] -> (s = HSL -> legacy = true) -> body rd (src_of o) s args c -> parse_hsl_hwb s legacy o (map fl args) = Ok (c, []).
Proof.
  intros I L H. destruct H;
    try (exfalso; cbn in I; try (cbn in H); repeat match goal with A : _ \/ _ |- _ => destruct A as [A|A] end; try contradiction;
         repeat match goal with A : (_, _) = (_, _) |- _ => inversion A; clear A; subst end; discriminate).
  - unfold parse_hsl_hwb. do_next t1; [apply hue_iff; eassumption|].
    replace (legacy && is_none o && negb (is_none h) && starts_with_comma (fl t2 :: fl t3 :: map fl la)) with false.
    2:{ symmetry. apply andb_false_iff. right. destruct t2; try reflexivity. apply component_not_comma in H1. contradiction. }
    do_next t2; [apply comp_iff; eassumption|]. do_next t3; [apply comp_iff; eassumption|]. apply bind_ok. eexists. split; [apply alpha_iff; eassumption|]. cbn [fst snd].
    apply clamped_iff in H2, H4; try lra. apply hue_color_iff in H6. subst. reflexivity.
  - rewrite (L eq_refl). destruct o; [discriminate|]. unfold parse_hsl_hwb. do_next t1; [apply (hue_iff None); eassumption|]. cbn [andb is_none negb map fl starts_with_comma comma bind].
    do_next t2; [apply (comp_iff None), percent_iff; eassumption|]. cbn [map fl comma bind]. do_next t3; [apply (comp_iff None), percent_iff; eassumption|]. cbn [is_none orb].
    apply bind_ok. eexists. split; [apply old_alpha_iff; eassumption|]. cbn [fst snd].
    apply clamped_iff in H2, H4; try lra. apply hue_color_iff in H6. subst. reflexivity.
Qed.
(** *** rgb() *)
Definition whole_of (x : either) : num := match x with AsNumber v => v | AsValue v => nmul v (Some 255) end.
Lemma component_of x : get_component x = channel (whole_of x).
Proof. destruct x; reflexivity. Qed.
Lemma np_comp o t x : number_or_percentage o (fl t) = Ok x -> component rd (kws o) 255 t (whole_of x).
Proof. intros H. apply comp_iff. unfold comp. rewrite H. destruct x; reflexivity. Qed.
Lemma comp_np o t v : component rd (kws o) 255 t v -> exists x, number_or_percentage o (fl t) = Ok x /\ whole_of x = v.
Proof. intros H. apply comp_iff in H. unfold comp in H. apply bind_ok in H. destruct H as [x [E F]]. exists x. split; [exact E|]. destruct x; inversion F; reflexivity. Qed.
Lemma plain_number_iff t v : plain_number (fl t) = Ok (Some v) <-> value_of rd no_keywords t TNumber (Some v).
Proof.
  unfold plain_number, or_else. split.
  - destruct (number_parse (fl t)) eqn:E; try discriminate.
    + intros H. inversion H; subst. apply number_sound. exact E.
    + intros H. apply none_ok in H. destruct H; discriminate.
  - intros H. rewrite (number_complete _ _ H). reflexivity.
Qed.
Lemma plain_percentage_iff t v : plain_percentage (fl t) = Ok (Some v) <-> value_of rd no_keywords t TPercentage (Some v).
Proof.
  unfold plain_percentage, or_else. split.
  - destruct (percentage_parse (fl t)) eqn:E; try discriminate.
    + intros H. inversion H; subst. apply percentage_sound. exact E.
    + intros H. apply none_ok in H. destruct H; discriminate.
  - intros H. rewrite (percentage_complete _ _ H). reflexivity.
Qed.
Lemma channel_some x v : is_none x = false -> x = channel v -> exists w, v = Some w.
Proof. destruct v; [eauto|]. cbn. intros A B. subst. discriminate. Qed.
Lemma channel_none x : is_none (channel x) = is_none x.
Proof. destruct x; reflexivity. Qed.
Lemma rgb_sound o args c : parse_rgb o (map fl args) = Ok (c, []) -> body rd (src_of o) RGB args c.
Proof.
  intros H. unfold parse_rgb in H. inv_next H x t1 l1 F1.
  destruct (is_none o && negb (is_none (either_num x)) && starts_with_comma (map fl l1)) eqn:E.
  - apply andb_prop in E. destruct E as [E S]. apply andb_prop in E. destruct E as [O Hx].
    apply negb_true_iff, is_none_some in Hx. destruct Hx as [x' Hx]. apply starts_map in S. destruct S as [l2 ->]. destruct o; [discriminate|].
    cbn [map fl comma bind] in H. apply bind_ok in H. destruct H as [[[[r g] b] l] [V H]].
    destruct (is_none g || is_none b) eqn:N; [discriminate|]. apply orb_false_elim in N. destruct N as [Ng Nb].
    apply bind_ok in H. destruct H as [[a rest] [A H]]. cbn [fst snd] in H. inversion H; subst; clear H. apply np_sound in F1. destruct x as [x|x]; cbn [either_num] in Hx; subst x.
    + inv_next V y t2 l3 F2. apply bind_ok in V. destruct V as [r' [C V]]. apply comma_map in C. destruct C as [l4 [-> ->]].
      inv_next V z t3 l5 F3. inversion V; subst; clear V. rewrite channel_none in Ng, Nb. apply is_none_some in Ng, Nb. destruct Ng as [y' ->], Nb as [z' ->].
      apply plain_number_iff in F2, F3. apply old_alpha_iff in A. destruct F1 as [F1|[_ F1]]; [|discriminate].
      apply (RgbOld rd (src_of None) TNumber t1 t2 t3 l5 x' y' z' a 1); [reflexivity | auto | exact F1 | exact F2 | exact F3 | exact A |].
      rewrite !Rmult_1_r. apply (rgb_color_iff true). reflexivity.
    + inv_next V y t2 l3 F2. apply bind_ok in V. destruct V as [r' [C V]]. apply comma_map in C. destruct C as [l4 [-> ->]].
      inv_next V z t3 l5 F3. inversion V; subst; clear V. rewrite channel_none in Ng, Nb.
      destruct y as [y'|]; [|discriminate]. destruct z as [z'|]; [|discriminate].
      apply plain_percentage_iff in F2, F3. apply old_alpha_iff in A.
      apply (RgbOld rd (src_of None) TPercentage t1 t2 t3 l5 x' y' z' a 255); [reflexivity | auto | exact F1 | exact F2 | exact F3 | exact A |].
      apply (rgb_color_iff true). reflexivity.
  - inv_next H y t2 l2 F2. inv_next H z t3 l3 F3. apply bind_ok in H. destruct H as [[a r] [A H]]. cbn [fst snd] in H. inversion H; subst. apply alpha_iff in A.
    apply (RgbText rd (src_of o) t1 t2 t3 l3 (whole_of x) (whole_of y) (whole_of z) a); [apply np_comp; assumption .. | exact A |].
    rewrite !component_of. apply (rgb_color_iff false). reflexivity.
Qed.
Lemma rgb_complete o args c : body rd (src_of o) RGB args c -> parse_rgb o (map fl args) = Ok (c, []).
Proof.
  intros H. remember RGB as s. destruct H;
    try (exfalso; try (cbn in H); subst; repeat match goal with A : _ \/ _ |- _ => destruct A as [A|A] end; try contradiction;
         repeat match goal with A : (_, _) = (_, _) |- _ => inversion A; clear A; subst end; discriminate).
  - apply comp_np in H, H0, H1. destruct H as [x [H <-]], H0 as [y [H0 <-]], H1 as [z [H1 <-]].
    unfold parse_rgb. do_next t1; [eassumption|].
    replace (is_none o && negb (is_none (either_num x)) && starts_with_comma (fl t2 :: fl t3 :: map fl la)) with false.
    2:{ symmetry. apply andb_false_iff. right. destruct t2; try reflexivity. apply np_comp, component_not_comma in H0. contradiction. }
    do_next t2; [eassumption|]. do_next t3; [eassumption|]. apply bind_ok. eexists. split; [apply alpha_iff; eassumption|]. cbn [fst snd].
    apply (rgb_color_iff false) in H3. subst. rewrite !component_of. reflexivity.
  - destruct o; [discriminate|]. unfold parse_rgb. destruct H0 as [[-> ->]|[-> ->]].
    + do_next t1; [apply (np_complete None _ (AsNumber (Some r))); left; eassumption|]. cbn [is_none either_num negb map fl starts_with_comma andb comma bind].
      apply bind_ok. eexists. split.
      { do_next t2; [apply plain_number_iff; eassumption|]. cbn [map fl comma bind]. do_next t3; [apply plain_number_iff; eassumption|]. reflexivity. }
      cbn [channel option_map is_none orb]. apply bind_ok. eexists. split; [apply old_alpha_iff; eassumption|]. cbn [fst snd].
      apply (rgb_color_iff true) in H5. subst. rewrite !Rmult_1_r. reflexivity.
    + do_next t1; [apply (np_complete None _ (AsValue (Some r))); eassumption|]. cbn [is_none either_num negb map fl starts_with_comma andb comma bind].
      apply bind_ok. eexists. split.
      { do_next t2; [apply plain_percentage_iff; eassumption|]. cbn [map fl comma bind]. do_next t3; [apply plain_percentage_iff; eassumption|]. reflexivity. }
      cbn [channel option_map is_none orb nmul lift2]. apply bind_ok. eexists. split; [apply old_alpha_iff; eassumption|]. cbn [fst snd].
      apply (rgb_color_iff true) in H5. subst. reflexivity.
Qed.

(** ** Functions *)
Definition parser_of (s : space) : parser :=
  match s with
  | LAB => parse_lab LAB 100 125 | OKLAB => parse_lab OKLAB 1 0.4 | LCH => parse_lch LCH 100 150 | OKLCH => parse_lch OKLCH 1 0.4
  | HSL => parse_hsl_hwb HSL true | HWB => parse_hsl_hwb HWB false | _ => parse_rgb
  end.
Definition src_in (s : space) (o : option origin) : source := src_of (match s with LCH | OKLCH => option_map turn o | _ => o end).
Definition is_function (s : space) : Prop := In s [LAB; OKLAB; LCH; OKLCH; HSL; HWB; RGB].
Lemma function_space name s : In (name, s) function_names -> is_function s.
Proof. cbn. intros H. repeat (destruct H as [H|H]; [inversion H; subst; cbn; tauto|]). contradiction. Qed.
Lemma body_iff s o args c : is_function s -> parser_of s o (map fl args) = Ok (c, []) <-> body rd (src_in s o) s args c.
Proof.
  intros F. cbn in F. repeat (destruct F as [<-|F]; [cbn [parser_of]; unfold src_in; cbn iota; split; intros H|]); try contradiction.
  - apply (lab_sound _ 100 125); [cbn; tauto|exact H].
  - apply lab_complete; [cbn; tauto|exact H].
  - apply (lab_sound _ 1 0.4); [cbn; tauto|exact H].
  - apply lab_complete; [cbn; tauto|exact H].
  - apply (lch_sound _ 100 150); [cbn; tauto|exact H].
  - apply lch_complete; [cbn; tauto|exact H].
  - apply (lch_sound _ 1 0.4); [cbn; tauto|exact H].
  - apply lch_complete; [cbn; tauto|exact H].
  - apply (hsl_sound _ true); [cbn; tauto|reflexivity|exact H].
  - apply hsl_complete; [cbn; tauto|reflexivity|exact H].
  - apply (hsl_sound _ false); [cbn; tauto|discriminate|exact H].
  - apply hsl_complete; [cbn; tauto|discriminate|exact H].
  - apply rgb_sound. exact H.
  - apply rgb_complete. exact H.
Qed.
(** What is left does not depend on the colour that the components are relative to *)
Definition after_alpha (l : list flat) : list flat := match l with FSlash :: _ :: l => l | l => l end.
Definition rest_of (l : list flat) : list flat := after_alpha (skipn 3 l).
Lemma alpha_rest o l a r : parse_alpha o l = Ok (a, r) -> after_alpha l = r.
Proof.
  destruct l as [|t l]; [intros H; inversion H; reflexivity|]. destruct t; cbn; try (intros H; inversion H; reflexivity).
  intros H. apply bind_ok in H. destruct H as [[v r'] [N E]]. cbn [fst snd] in E. inversion E; subst. apply next_ok in N. destruct N as [t [-> _]]. reflexivity.
Qed.
Ltac rest_tac := 
  repeat match goal with
  | H : bind _ _ = Ok _ |- _ => apply bind_ok in H; let x := fresh "x" in let E := fresh "E" in destruct H as [x [E H]]; try (destruct x); cbn [fst snd] in *
  | H : next _ _ = Ok (_, _) |- _ => apply next_ok in H; let t := fresh "t" in destruct H as [t [-> _]]
  | H : Ok (_, _) = Ok (_, _) |- _ => inversion H; clear H; subst
  | H : parse_alpha _ _ = Ok _ |- _ => apply alpha_rest in H
  end; unfold rest_of; cbn [skipn]; subst; try assumption; try reflexivity.
Lemma parser_rest s o l c r : parser_of s (Some o) l = Ok (c, r) -> r = rest_of l.
Proof.
  destruct s; cbn [parser_of]; unfold parse_lab, parse_lch, parse_hsl_hwb, parse_rgb; cbn [is_none andb]; intros H; rest_tac.
Qed.

(** ** Colours that others are relative to *)
Lemma frem_upper x : frem x 360 < 360.
Proof.
  unfold frem, trunc. destruct (ltb (x / 360) 0) eqn:E.
  - destruct (floor_bounds (- (x / 360))). apply ltb_iff in E. lra.
  - apply ltb_false in E. destruct (floor_bounds (x / 360)). lra.
Qed.
Definition turn_num (x : num) : num := option_map (fun h => let h := frem h 360 in if ltb h 0 then h + 360 else h) x.
Lemma turned_iff x y : turned_hue x y <-> y = turn_num x.
Proof.
  assert (T : turned_hue x (turn_num x)).
  { destruct x as [h|]; [|exact I]. cbn. pose proof (frem_lower h). pose proof (frem_upper h). pose proof (frem_angle h) as A. destruct (ltb (frem h 360) 0) eqn:E.
    - apply ltb_iff in E. split; [|lra]. eapply same_angle_trans; [|exact A]. exists 1%Z. lra.
    - apply ltb_false in E. split; [exact A|lra]. }
  split; [|intros ->; exact T]. destruct x as [h|], y as [k|]; cbn in T |- *; try contradiction; [|reflexivity].
  intros [A B]. destruct T as [A' B']. f_equal.
  pose proof (same_angle_trans _ _ _ A (same_angle_sym _ _ A')) as S. destruct S as [n S].
  assert (N : (n = 0)%Z).
  { assert (n <= 0)%Z by (apply int_bound; lra). assert (0 <= n)%Z by (apply int_bound; lra). lia. }
  subst n. lra.
Qed.
Lemma in_space_iff s c x : in_space s c x <-> try_from s c = Some x.
Proof.
  split.
  - inversion 1; reflexivity.
  - destruct c; try discriminate; intros H; inversion H; constructor.
Qed.
Lemma source_iff s c src : is_function s -> source_of rd s c src <-> exists x, try_from s c = Some x /\ src = src_in s (Some (Origin s (resolve s x))).
Proof.
  intros F. split.
  - inversion 1; subst; apply in_space_iff in H0; exists x; (split; [exact H0|]).
    + destruct s; try reflexivity; exfalso; apply H1; reflexivity.
    + apply turned_iff in H3. subst. destruct s; try discriminate; reflexivity.
  - intros [x [T ->]]. apply in_space_iff in T. cbn in F.
    repeat (destruct F as [<-|F]; [first [apply (SourceOf rd _ c x _ T); [discriminate|reflexivity] | apply (SourceOfHue rd _ c x _ _ T); [reflexivity|reflexivity|apply turned_iff; reflexivity]]|]).
    contradiction.
Qed.
Lemma from_rest s c : forall l x r, parse_from s (parser_of s) c l = Ok (x, r) -> r = rest_of l.
Proof.
  induction c; cbn [parse_from]; intros l0 x0 r0 H; try (destruct (try_from _ _); [apply parser_rest in H; exact H | discriminate]).
  apply bind_ok in H. destruct H as [[u ru] [A H]]. apply bind_ok in H. destruct H as [[v rv] [B H]]. inversion H; subst. eapply IHc2. exact B.
Qed.
Lemma from_iff s args : is_function s -> forall c x,
  parse_from s (parser_of s) c (map fl args) = Ok (x, []) <-> halves (fun co c => exists src, source_of rd s co src /\ body rd src s args c) c x.
Proof.
  intros F c. assert (P : forall x, is_pair c = false ->
    (match try_from s c with Some y => parser_of s (Some (Origin s (resolve s y))) (map fl args) | None => Fail end = Ok (x, []) <->
     halves (fun co c => exists src, source_of rd s co src /\ body rd src s args c) c x)).
  { intros x NP. split.
    - destruct (try_from s c) as [y|] eqn:T; [|discriminate]. intros H. apply body_iff in H; [|exact F]. apply HalvesOne; [exact NP|].
      eexists. split; [|exact H]. apply source_iff; [exact F|]. eauto.
    - inversion 1; subst; [discriminate|]. destruct H1 as [src [S B]]. apply source_iff in S; [|exact F]. destruct S as [y [-> ->]]. apply body_iff; assumption. }
  induction c; intros x; try (apply P; reflexivity). clear P. cbn [parse_from].
  assert (E : forall c, (forall x, is_pair c = false ->
    (match try_from s c with Some y => parser_of s (Some (Origin s (resolve s y))) (map fl args) | None => Fail end = Ok (x, []) <->
     halves (fun co c => exists src, source_of rd s co src /\ body rd src s args c) c x))).
  { intros c x' NP. split.
    - destruct (try_from s c) as [y|] eqn:T; [|discriminate]. intros H. apply body_iff in H; [|exact F]. apply HalvesOne; [exact NP|].
      eexists. split; [|exact H]. apply source_iff; [exact F|]. eauto.
    - inversion 1; subst; [discriminate|]. destruct H1 as [src [S B]]. apply source_iff in S; [|exact F]. destruct S as [y [-> ->]]. apply body_iff; assumption. }
  specialize (IHc1 (E c1)). specialize (IHc2 (E c2)). split.
  - intros H. apply bind_ok in H. destruct H as [[u ru] [A H]]. apply bind_ok in H. destruct H as [[v rv] [B H]]. inversion H; subst. cbn [fst snd] in *. subst.
    assert (ru = []) by (rewrite (from_rest _ _ _ _ _ A), <- (from_rest _ _ _ _ _ B); reflexivity). subst. constructor; [apply IHc1; exact A | apply IHc2; exact B].
  - inversion 1 as [? ? ? ? L D|]; subst; [|discriminate]. apply IHc1 in L. apply IHc2 in D. rewrite L, D. reflexivity.
Qed.
Lemma is_color_token t : (forall n, t <> Ident n) -> (exists c, fl t = FColor c) \/ forall c, fl t <> FColor c.
Proof. destruct t; cbn; eauto; right; discriminate. Qed.
Lemma text_flat d t c : color_text d t c -> fl t = FColor (parse_color t).
Proof. destruct 1; reflexivity. Qed.
Lemma color_flat t c : fl t = FColor c -> c = parse_color t.
Proof. destruct t; cbn; try discriminate; intros H; inversion H; reflexivity. Qed.
Lemma from_not_value ty x : ~ value_of rd no_keywords (Ident "from") ty x.
Proof. intros H. inversion H. contradiction. Qed.
Lemma body_not_from s l c : ~ body rd no_source s (Ident "from" :: l) c.
Proof.
  intros H. inversion H; subst; cbn [kw no_source] in *;
    repeat match goal with
    | H : component _ _ _ (Ident _) _ |- _ => inversion H; clear H; subst
    | H : hue_component _ _ (Ident _) _ |- _ => inversion H; clear H; subst
    | H : value_of _ _ (Ident _) _ _ |- _ => apply from_not_value in H; exact H
    end.
Qed.
Definition token_ok (t : token) : Prop := forall c, parse_color t = Ok c <-> color_text rd t c.
Lemma relative_iff s args c : is_function s -> Forall token_ok args ->
  whole (parse_relative s (parser_of s) (map fl args)) = Ok c <->
  body rd no_source s args c \/
  exists o l co, args = Ident "from" :: o :: l /\ color_text rd o co /\ halves (fun co c => exists src, source_of rd s co src /\ body rd src s l c) co c.
Proof.
  intros F IH.
  assert (W : forall x, whole x = Ok c <-> x = Ok (c, [])).
  { intros x. unfold whole. rewrite bind_ok. split.
    - intros [[y r] [-> E]]. cbn in E. destruct r; [inversion E; reflexivity|discriminate].
    - intros ->. eexists. split; reflexivity. }
  assert (N : src_in s None = no_source) by (destruct s; reflexivity).
  rewrite W. split.
  - intros H.
    assert (D : (parse_relative s (parser_of s) (map fl args) = parser_of s None (map fl args)) \/ exists l, args = Ident "from" :: l).
    { destruct args as [|t l]; [left; reflexivity|]. destruct t; try (left; reflexivity). cbn [map fl parse_relative]. destruct (String.eqb s0 "from") eqn:E; [|left; reflexivity].
      apply String.eqb_eq in E. subst. right. eauto. }
    destruct D as [D|[l ->]].
    + left. rewrite D in H. apply body_iff in H; [|exact F]. rewrite N in H. exact H.
    + right. cbn in H. destruct l as [|o l]; [discriminate|]. cbn [map] in H. destruct (fl o) eqn:O; try discriminate.
      apply color_flat in O. subst. apply bind_ok in H. destruct H as [co [E H]]. exists o, l, co. split; [reflexivity|].
      inversion IH as [|? ? _ IH']; subst. inversion IH' as [|? ? I1 _]; subst. split; [apply I1; exact E|]. apply from_iff; assumption.
  - intros [B|[o [l [co [-> [T Hv]]]]]].
    + replace (parse_relative s (parser_of s) (map fl args)) with (parser_of s None (map fl args)).
      * apply body_iff; [exact F|]. rewrite N. exact B.
      * destruct args as [|t l]; [reflexivity|]. destruct t; try reflexivity. cbn [map fl parse_relative]. destruct (String.eqb s0 "from") eqn:E; [|reflexivity].
        apply String.eqb_eq in E. subst. apply body_not_from in B. contradiction.
    + cbn. rewrite (text_flat _ _ _ T). inversion IH as [|? ? _ IH']; subst. inversion IH' as [|? ? I1 _]; subst. apply I1 in T. rewrite T. cbn [bind]. apply from_iff; assumption.
Qed.

(** ** color() *)
Definition flat_css (c : css) : Prop := match c with LightDark a b => is_pair a = false /\ is_pair b = false | _ => True end.
Definition token_flat (t : token) : Prop := forall c, parse_color t = Ok c -> flat_css c.
Definition color_parser (s : space) (o : option origin) (l : list flat) : out (css * list flat) :=
  x <- next (comp o 1) l ;; y <- next (comp o 1) (snd x) ;; z <- next (comp o 1) (snd y) ;;
  a <- parse_alpha o (snd z) ;; Ok (Plain s (Comps (fst x) (fst y) (fst z) (fst a)), snd a).
Lemma color_iff s o args c : color_parser s o (map fl args) = Ok (c, []) <-> color_body rd (src_of o) s args c.
Proof.
  split.
  - intros H. unfold color_parser in H. inv_next H x t1 l1 F1. inv_next H y t2 l2 F2. inv_next H z t3 l3 F3.
    apply bind_ok in H. destruct H as [[a r] [A H]]. cbn [fst snd] in H. inversion H; subst. apply alpha_iff in A.
    constructor; [apply comp_iff; assumption .. | exact A].
  - destruct 1. unfold color_parser. do_next t1; [apply comp_iff; eassumption|]. do_next t2; [apply comp_iff; eassumption|].
    do_next t3; [apply comp_iff; eassumption|]. apply bind_ok. eexists. split; [apply alpha_iff; eassumption|]. reflexivity.
Qed.
Lemma color_rest s o l c r : color_parser s o l = Ok (c, r) -> r = rest_of l.
Proof. unfold color_parser. intros H. rest_tac. Qed.
Lemma predefined_iff name s : predefined name = Some s <-> In (name, s) predefined_names.
Proof.
  split.
  - unfold predefined. intros H. repeat (destruct (String.eqb name _) eqn:E in H; [apply String.eqb_eq in E; inversion H; subst; cbn; tauto|]; clear E). discriminate.
  - cbn. intros H. repeat (destruct H as [H|H]; [inversion H; subst; reflexivity|]). contradiction.
Qed.
Lemma of_option_ok {A} (x : option A) a : of_option x = Ok a <-> x = Some a.
Proof. destruct x; cbn; split; intros H; inversion H; reflexivity. Qed.
Lemma named_iff name args c :
  parse_predefined_relative name None (map fl args) = Ok (c, []) <-> exists s, In (name, s) predefined_names /\ color_body rd no_source s args c.
Proof.
  unfold parse_predefined_relative. split.
  - intros H. apply bind_ok in H. destruct H as [s [E H]]. apply of_option_ok, predefined_iff in E. exists s. split; [exact E|]. apply (color_iff s None). exact H.
  - intros [s [E H]]. apply predefined_iff in E. rewrite E. cbn [of_option bind]. apply (color_iff s None). exact H.
Qed.
Lemma named_from_iff name co args c :
  parse_predefined_relative name (Some co) (map fl args) = Ok (c, []) <->
  exists s, In (name, s) predefined_names /\ exists src, color_source rd s co src /\ color_body rd src s args c.
Proof.
  unfold parse_predefined_relative. split.
  - intros H. apply bind_ok in H. destruct H as [s [E H]]. apply of_option_ok, predefined_iff in E. apply bind_ok in H. destruct H as [o [O H]].
    apply bind_ok in O. destruct O as [x [T O]]. inversion O; subst. apply of_option_ok, in_space_iff in T.
    exists s. split; [exact E|]. exists (src_of (Some (Origin s (resolve_missing x)))). split; [econstructor; [exact T|reflexivity] | apply color_iff; exact H].
  - intros [s [E [src [S H]]]]. apply predefined_iff in E. rewrite E. cbn [of_option bind]. destruct S as [x y T ->]. apply in_space_iff in T. rewrite T. cbn [of_option bind].
    apply (color_iff s (Some (Origin s (resolve_missing x)))). exact H.
Qed.
Lemma named_rest name co l c r : parse_predefined_relative name (Some co) l = Ok (c, r) -> r = rest_of l.
Proof.
  unfold parse_predefined_relative. intros H. apply bind_ok in H. destruct H as [s [_ H]]. apply bind_ok in H. destruct H as [o [_ H]]. apply (color_rest s o l c). exact H.
Qed.
Lemma named_fun name s s' : In (name, s) predefined_names -> In (name, s') predefined_names -> s = s'.
Proof. intros A B. apply predefined_iff in A, B. congruence. Qed.
Lemma whole_ok x c : whole x = Ok c <-> x = Ok (c, []).
Proof.
  unfold whole. rewrite bind_ok. split.
  - intros [[y r] [-> E]]. cbn in E. destruct r; [inversion E; reflexivity|discriminate].
  - intros ->. eexists. split; reflexivity.
Qed.
Lemma halves_inv (R : css -> css -> Prop) c x : is_pair c = false -> halves R c x -> R c x.
Proof. intros P. inversion 1; subst; [discriminate|assumption]. Qed.
Lemma predefined_text_iff args c : Forall token_ok args -> Forall token_flat args ->
  whole (parse_predefined (map fl args)) = Ok c <->
  (exists name s l, args = Ident name :: l /\ In (name, s) predefined_names /\ color_body rd no_source s l c) \/
  exists name s o l co, args = Ident "from" :: o :: Ident name :: l /\ In (name, s) predefined_names /\ color_text rd o co /\
    halves (fun co c => exists src, color_source rd s co src /\ color_body rd src s l c) co c.
Proof.
  intros IH IF. rewrite whole_ok.
  assert (N : forall l, parse_predefined (map fl (Ident "from" :: l)) = match map fl l with FColor co :: r => co <- co ;; match r with
      | FIdent name :: r => match co with LightDark a b => x <- parse_predefined_relative name (Some a) r ;; y <- parse_predefined_relative name (Some b) r ;; Ok (LightDark (fst x) (fst y), snd y)
                            | _ => parse_predefined_relative name (Some co) r end | _ => Fail end | _ => Fail end).
  { intros l. unfold parse_predefined. cbn [map fl String.eqb Ascii.eqb Bool.eqb]. destruct (map fl l) as [|[] r]; try reflexivity. destruct c0 as [co| |]; try reflexivity.
    cbn [bind fst snd]. destruct r as [|[] r]; try reflexivity. destruct co; reflexivity. }
  assert (M : forall name l co, flat_css co ->
      match co with LightDark a b => x <- parse_predefined_relative name (Some a) (map fl l) ;; y <- parse_predefined_relative name (Some b) (map fl l) ;; Ok (LightDark (fst x) (fst y), snd y)
      | _ => parse_predefined_relative name (Some co) (map fl l) end = Ok (c, []) <->
      exists s, In (name, s) predefined_names /\ halves (fun co c => exists src, color_source rd s co src /\ color_body rd src s l c) co c).
  { intros name l co FL.
    assert (One : is_pair co = false -> (parse_predefined_relative name (Some co) (map fl l) = Ok (c, []) <->
      exists s, In (name, s) predefined_names /\ halves (fun co c => exists src, color_source rd s co src /\ color_body rd src s l c) co c)).
    { intros P. rewrite named_from_iff. split; intros [s [E H]]; exists s; (split; [exact E|]); [apply HalvesOne; [exact P|exact H] | apply (halves_inv _ _ _ P) in H; exact H]. }
    destruct co as [| | |a b|]; try (apply One; reflexivity). clear One. destruct FL as [Pa Pb]. split.
    - intros H. apply bind_ok in H. destruct H as [[x rx] [A H]]. apply bind_ok in H. destruct H as [[y ry] [B H]]. cbn [fst snd] in H. inversion H; subst.
      assert (rx = []) by (rewrite (named_rest _ _ _ _ _ A), <- (named_rest _ _ _ _ _ B); reflexivity). subst.
      apply named_from_iff in A, B. destruct A as [s [E A]], B as [s' [E' B]]. assert (s' = s) by (eapply named_fun; eassumption). subst.
      exists s. split; [exact E|]. constructor; apply HalvesOne; assumption.
    - intros [s [E H]]. inversion H; subst; [|discriminate]. apply (halves_inv _ _ _ Pa) in H2. apply (halves_inv _ _ _ Pb) in H4.
      assert (A : parse_predefined_relative name (Some a) (map fl l) = Ok (x, [])) by (apply named_from_iff; eauto).
      assert (B : parse_predefined_relative name (Some b) (map fl l) = Ok (y, [])) by (apply named_from_iff; eauto). rewrite A, B. reflexivity. }
  split.
  - intros H. destruct args as [|t l]; [discriminate|]. destruct t; try discriminate. destruct (string_dec s "from") as [->|NF].
    + right. rewrite N in H. destruct l as [|o l]; [discriminate|]. cbn [map] in H. destruct (fl o) eqn:O; try discriminate. apply color_flat in O. subst.
      apply bind_ok in H. destruct H as [co [E H]]. destruct l as [|n l]; [discriminate|]. cbn [map] in H. destruct n; try discriminate. cbn [fl] in H.
      inversion IH as [|? ? _ IH']; subst. inversion IH' as [|? ? I1 _]; subst. inversion IF as [|? ? _ IF']; subst. inversion IF' as [|? ? I2 _]; subst.
      apply M in H; [|apply I2; exact E]. destruct H as [sp [E' H]]. exists s, sp, o, l, co. repeat split; try assumption. apply I1. exact E.
    + left. assert (E : parse_predefined (map fl (Ident s :: l)) = parse_predefined_relative s None (map fl l)).
      { unfold parse_predefined. cbn [map fl]. rewrite (proj2 (String.eqb_neq _ _) NF). reflexivity. }
      rewrite E in H. apply named_iff in H. destruct H as [sp [E' H]]. exists s, sp, l. auto.
  - intros [[name [s [l [-> [E H]]]]]|[name [s [o [l [co [-> [E [T H]]]]]]]]].
    + assert (NF : name <> "from") by (intros ->; cbn in E; repeat (destruct E as [E|E]; [discriminate|]); contradiction).
      unfold parse_predefined. cbn [map fl]. rewrite (proj2 (String.eqb_neq _ _) NF). cbn [bind fst snd]. apply named_iff. eauto.
    + rewrite N. cbn [map]. rewrite (text_flat _ _ _ T).
      inversion IH as [|? ? _ IH']; subst. inversion IH' as [|? ? I1 _]; subst. inversion IF as [|? ? _ IF']; subst. inversion IF' as [|? ? I2 _]; subst.
      pose proof T as P. apply I1 in P. rewrite P. cbn [bind fl]. apply M; [apply I2; exact P | eauto].
Qed.

(** ** light-dark() and color-mix() *)
Lemma used_light c : flat_css c -> used false c = light c.
Proof. destruct c; try reflexivity. cbn. intros [A _]. destruct c1; try reflexivity. discriminate. Qed.
Lemma used_dark c : flat_css c -> used true c = dark c.
Proof. destruct c; try reflexivity. cbn. intros [_ A]. destruct c2; try reflexivity. discriminate. Qed.
Lemma light_dark_iff args c : Forall token_ok args -> Forall token_flat args ->
  whole (parse_light_dark (map fl args)) = Ok c <->
  exists a b ca cb, args = [a; CommaToken; b] /\ color_text rd a ca /\ color_text rd b cb /\ c = LightDark (used false ca) (used true cb).
Proof.
  intros IH IF. rewrite whole_ok. split.
  - intros H. destruct args as [|a l]; [discriminate|]. cbn [map] in H. unfold parse_light_dark in H. destruct (fl a) eqn:A; try discriminate. apply color_flat in A. subst.
    apply bind_ok in H. destruct H as [ca [A H]]. apply bind_ok in H. destruct H as [r [C H]]. apply comma_map in C. destruct C as [l' [-> ->]].
    destruct l' as [|b l']; [discriminate|]. cbn [map] in H. destruct (fl b) eqn:B; try discriminate. apply color_flat in B. subst.
    apply bind_ok in H. destruct H as [cb [B H]]. inversion H; subst. destruct l'; [|discriminate].
    inversion IH as [|? ? I1 IH']; subst. inversion IH' as [|? ? _ IH'']; subst. inversion IH'' as [|? ? I2 _]; subst.
    inversion IF as [|? ? F1 IF']; subst. inversion IF' as [|? ? _ IF'']; subst. inversion IF'' as [|? ? F2 _]; subst.
    exists a, b, ca, cb. rewrite (used_light _ (F1 _ A)), (used_dark _ (F2 _ B)). repeat split; [apply I1; exact A | apply I2; exact B].
  - intros [a [b [ca [cb [-> [A [B ->]]]]]]].
    inversion IH as [|? ? I1 IH']; subst. inversion IH' as [|? ? _ IH'']; subst. inversion IH'' as [|? ? I2 _]; subst.
    inversion IF as [|? ? F1 IF']; subst. inversion IF' as [|? ? _ IF'']; subst. inversion IF'' as [|? ? F2 _]; subst.
    cbn [map]. rewrite (text_flat _ _ _ A), (text_flat _ _ _ B). apply I1 in A. apply I2 in B. cbn [parse_light_dark fl]. rewrite A. cbn [bind comma]. rewrite B. cbn [bind].
    rewrite (used_light _ (F1 _ A)), (used_dark _ (F2 _ B)). reflexivity.
Qed.
Lemma mix_token_iff t k : token_ok t -> mix_token (fl t) = Ok k <-> mix_part rd (color_text rd) t k.
Proof.
  intros I. split.
  - destruct t; cbn [fl mix_token]; try discriminate.
    + intros H. inversion H. apply MixWord.
    + intros H. inversion H. apply MixPercent. constructor.
    + destruct (eval TPercentage no_ident e) as [[x|[x|]|]|] eqn:E; try discriminate. intros H. inversion H; subst. apply MixPercent. constructor.
      apply (value_ok TPercentage); [discriminate|exact E].
    + intros H. inversion H. apply MixComma.
    + intros H. apply bind_ok in H. destruct H as [c' [E H]]. inversion H; subst. apply MixColor. apply I. exact E.
    + intros H. apply bind_ok in H. destruct H as [c' [E H]]. inversion H; subst. apply MixColor. apply I. exact E.
  - intros M. destruct M as [s| |u p V|u c T].
    + reflexivity.
    + reflexivity.
    + inversion V; subst; [reflexivity| |contradiction]. cbn [fl mix_token]. rewrite (proj2 (value_ok TPercentage e (Some p) ltac:(discriminate)) H). reflexivity.
    + pose proof T as P. apply I in P. rewrite (text_flat _ _ _ T). cbn [mix_token]. rewrite P. reflexivity.
Qed.
Lemma mix_tokens_iff args : Forall token_ok args -> forall l, mix_tokens (map fl args) = Ok l <-> Forall2 (mix_part rd (color_text rd)) args l.
Proof.
  induction 1 as [|t args I IH IHl]; intros l; cbn [map mix_tokens].
  - split; [intros H; inversion H; constructor | inversion 1; reflexivity].
  - split.
    + intros H. apply bind_ok in H. destruct H as [k [E H]]. apply bind_ok in H. destruct H as [l' [E' H]]. inversion H; subst.
      constructor; [apply mix_token_iff; assumption | apply IHl; exact E'].
    + inversion 1; subst. match goal with H : mix_part _ _ _ _ |- _ => apply (mix_token_iff _ _ I) in H; rewrite H end. cbn [bind].
      match goal with H : Forall2 _ _ _ |- _ => apply IHl in H; rewrite H end. reflexivity.
Qed.
Lemma mix_iff args c : Forall token_ok args ->
  (l <- mix_tokens (map fl args) ;; of_option (parse_color_mix l)) = Ok c <->
  exists l s m p1 a p2 b q1 q2, Forall2 (mix_part rd (color_text rd)) args l /\ mix_text s m p1 a p2 b l /\ percentages p1 p2 q1 q2 /\ q1 + q2 <> 0 /\ interpolate s m q1 q2 a b = Some c.
Proof.
  intros I. split.
  - intros H. apply bind_ok in H. destruct H as [l [E H]]. apply of_option_ok, parse_sound in H. destruct H as [s [m [p1 [a [p2 [b [q1 [q2 H]]]]]]]].
    exists l, s, m, p1, a, p2, b, q1, q2. split; [apply mix_tokens_iff; assumption | exact H].
  - intros [l [s [m [p1 [a [p2 [b [q1 [q2 [F [T [P [Q E]]]]]]]]]]]]]. apply (mix_tokens_iff _ I) in F. rewrite F. cbn [bind].
    rewrite (parse_complete _ _ _ _ _ _ _ _ _ T P). destruct (Req_EM_T (q1 + q2) 0); [contradiction|]. rewrite E. reflexivity.
Qed.

(** ** The whole *)
Lemma token_induction (P : token -> Prop) :
  (forall t, (forall name args, t <> Fn name args) -> P t) -> (forall name args, Forall P args -> P (Fn name args)) -> forall t, P t.
Proof.
  intros A B. fix IH 1. intros t. destruct t as [s|x|x|x|e| | |c|name args]; try (apply A; discriminate).
  apply B. induction args as [|t args IHargs]; constructor; [apply IH | exact IHargs].
Qed.
Lemma body_not_pair d src s args c : body d src s args c -> is_pair c = false.
Proof.
  destruct 1; try reflexivity;
    match goal with H : rgb_color _ _ _ _ _ |- _ => destruct H; reflexivity | H : hue_color _ _ _ _ _ _ |- _ => destruct H; try reflexivity end.
  - destruct H as [<-|[<-|[]]]; reflexivity.
Qed.
Lemma halves_flat (R : css -> css -> Prop) a x : (forall a x, R a x -> is_pair x = false) -> halves R a x -> flat_css a -> flat_css x.
Proof.
  intros N H F. destruct H as [a b x y H1 H2|a x _ H].
  - destruct F as [Fa Fb]. apply (halves_inv _ _ _ Fa) in H1. apply (halves_inv _ _ _ Fb) in H2. split; eapply N; eassumption.
  - apply N in H. destruct x; try exact I. discriminate.
Qed.
Lemma not_pair_flat c : is_pair c = false -> flat_css c.
Proof. destruct c; try (intros; exact I). discriminate. Qed.
Lemma plain_not_pair t m p1 p2 a b c : interpolate_plain t m p1 p2 a b = Some c -> is_pair c = false.
Proof.
  unfold interpolate_plain. destruct (try_from t a); [|discriminate]. destruct (try_from t b); [|discriminate]. intros H. inversion H; subst.
  destruct t; reflexivity.
Qed.
Lemma plain_fuel n t m p1 p2 a b c : is_pair a = false -> is_pair b = false -> interpolate_fuel n t m p1 p2 a b = Some c -> is_pair c = false.
Proof.
  intros A B H. destruct n; cbn [interpolate_fuel] in H; (destruct (is_unknown a || is_unknown b); [discriminate|]); rewrite A, B in H; cbn [orb] in H;
    apply plain_not_pair in H; exact H.
Qed.
Lemma light_not_pair c : flat_css c -> is_pair (light c) = false /\ is_pair (dark c) = false.
Proof. destruct c; cbn; auto. Qed.
Lemma mix_flat t m p1 p2 a b c : flat_css a -> flat_css b -> interpolate t m p1 p2 a b = Some c -> flat_css c.
Proof.
  intros A B. unfold interpolate. generalize (Nat.max (depth a) (depth b)). intros n H. destruct n; cbn [interpolate_fuel] in H.
  - destruct (is_unknown a || is_unknown b); [discriminate|]. destruct (is_pair a || is_pair b); [discriminate|]. apply plain_not_pair, not_pair_flat in H. exact H.
  - destruct (is_unknown a || is_unknown b); [discriminate|]. destruct (is_pair a || is_pair b); [|apply plain_not_pair, not_pair_flat in H; exact H].
    destruct (light_not_pair _ A), (light_not_pair _ B).
    destruct (interpolate_fuel n t m p1 p2 (light a) (light b)) eqn:L; [|discriminate]. destruct (interpolate_fuel n t m p1 p2 (dark a) (dark b)) eqn:D; [|discriminate].
    inversion H; subst. split; eapply plain_fuel; [..|exact L| | |exact D]; assumption.
Qed.
Lemma mix_text_colors s m p1 a p2 b l : mix_text s m p1 a p2 b l -> In (Color a) l /\ In (Color b) l.
Proof. intros [s' w m' lm p1' a' l1 p2' b' l2 _ _ A B]. rewrite !in_app_iff. split; [do 3 right; left; destruct A; cbn; auto | do 5 right; destruct B; cbn; auto]. Qed.
Lemma mix_colors args l c : Forall2 (mix_part rd (color_text rd)) args l -> In (Color c) l -> exists t, In t args /\ color_text rd t c.
Proof.
  induction 1 as [|t k args l H F IH]; [contradiction|]. intros [->|I]; [|destruct (IH I) as [u [A B]]; exists u; split; [right; exact A|exact B]].
  inversion H; subst. exists t. split; [left; reflexivity|assumption].
Qed.
Lemma function_cases name l c : parse_function name l = Ok c ->
  (exists s, In (name, s) function_names /\ whole (parse_relative s (parser_of s) l) = Ok c) \/
  name = "color" /\ whole (parse_predefined l) = Ok c \/ name = "light-dark" /\ whole (parse_light_dark l) = Ok c \/
  name = "color-mix" /\ (l <- mix_tokens l ;; of_option (parse_color_mix l)) = Ok c.
Proof.
  unfold parse_function. intros H.
  repeat match type of H with (if ?b then _ else _) = _ => destruct b eqn:?E end; try discriminate;
    repeat match goal with E : _ = false |- _ => clear E end;
    repeat match goal with E : (_ || _)%bool = true |- _ => apply orb_true_iff in E; destruct E as [E|E] end;
    match goal with E : String.eqb _ _ = true |- _ => apply String.eqb_eq in E; subst name end.
  all: first [right; left; split; [reflexivity|exact H] | right; right; left; split; [reflexivity|exact H] | right; right; right; split; [reflexivity|exact H] | left].
  - exists LAB. split; [cbn; tauto|exact H].
  - exists OKLAB. split; [cbn; tauto|exact H].
  - exists LCH. split; [cbn; tauto|exact H].
  - exists OKLCH. split; [cbn; tauto|exact H].
  - exists HSL. split; [cbn; tauto|exact H].
  - exists HSL. split; [cbn; tauto|exact H].
  - exists HWB. split; [cbn; tauto|exact H].
  - exists RGB. split; [cbn; tauto|exact H].
  - exists RGB. split; [cbn; tauto|exact H].
Qed.
Lemma function_named name s l : In (name, s) function_names -> parse_function name l = whole (parse_relative s (parser_of s) l).
Proof. cbn [In function_names]. intros H. repeat (destruct H as [H|H]; [inversion H; subst; reflexivity|]). contradiction. Qed.
Lemma proper_args name args : proper (Fn name args) -> Forall proper args.
Proof.
  cbn [proper]. induction args as [|t args IH]; cbn [fold_right]; [constructor|]. intros [A B]. constructor; auto.
Qed.
Lemma read_iff t : proper t -> token_ok t /\ token_flat t.
Proof.
  induction t as [t A|name args IH] using token_induction; intros P.
  - split.
    + intros c. split.
      * destruct t; cbn; try discriminate; [intros H; inversion H; constructor | exfalso; eapply A; reflexivity].
      * inversion 1; subst; try reflexivity; exfalso; eapply A; reflexivity.
    + intros c. destruct t; cbn; try discriminate; [|exfalso; eapply A; reflexivity]. intros H. inversion H; subst. cbn in P. destruct c; try exact I. contradiction.
  - apply proper_args in P.
    assert (OK : Forall token_ok args) by (clear - IH P; induction IH; [constructor|]; inversion P; subst; constructor; [apply H; assumption|auto]).
    assert (FL : Forall token_flat args) by (clear - IH P; induction IH; [constructor|]; inversion P; subst; constructor; [apply H; assumption|auto]).
    assert (D : forall c, parse_color (Fn name args) = Ok c -> color_text rd (Fn name args) c /\ flat_css c).
    { intros c H. rewrite parse_color_fn in H. apply function_cases in H. destruct H as [[s [N H]]|[[-> H]|[[-> H]|[-> H]]]].
      - apply relative_iff in H; [|eapply function_space; exact N|exact OK]. destruct H as [H|[o [l [co [-> [T H]]]]]].
        + split; [eapply TextAbsolute; eassumption|]. apply body_not_pair, not_pair_flat in H. exact H.
        + split; [eapply TextRelative; eassumption|]. eapply halves_flat; [|exact H|].
          * intros a x [src [_ B]]. apply body_not_pair in B. exact B.
          * inversion OK as [|? ? _ OK']; subst. inversion OK' as [|? ? O1 _]; subst. inversion FL as [|? ? _ FL']; subst. inversion FL' as [|? ? F1 _]; subst. apply F1, O1. exact T.
      - apply predefined_text_iff in H; [|exact OK|exact FL]. destruct H as [[n [s [l [-> [N H]]]]]|[n [s [o [l [co [-> [N [T H]]]]]]]]].
        + split; [eapply TextColor; eassumption|]. destruct H. exact I.
        + split; [eapply TextColorRelative; eassumption|]. eapply halves_flat; [|exact H|].
          * intros a x [src [_ B]]. destruct B. reflexivity.
          * inversion OK as [|? ? _ OK']; subst. inversion OK' as [|? ? O1 _]; subst. inversion FL as [|? ? _ FL']; subst. inversion FL' as [|? ? F1 _]; subst. apply F1, O1. exact T.
      - apply light_dark_iff in H; [|exact OK|exact FL]. destruct H as [a [b [ca [cb [-> [A [B ->]]]]]]]. split; [constructor; assumption|].
        inversion OK as [|? ? O1 OK']; subst. inversion OK' as [|? ? _ OK'']; subst. inversion OK'' as [|? ? O2 _]; subst.
        inversion FL as [|? ? F1 FL']; subst. inversion FL' as [|? ? _ FL'']; subst. inversion FL'' as [|? ? F2 _]; subst.
        assert (FA : flat_css ca) by (apply F1, O1, A). assert (FB : flat_css cb) by (apply F2, O2, B). rewrite (used_light _ FA), (used_dark _ FB).
        split; [apply (light_not_pair _ FA) | apply (light_not_pair _ FB)].
      - apply mix_iff in H; [|exact OK]. destruct H as [l [s [m [p1 [a [p2 [b [q1 [q2 [F [T [Pc [Q E]]]]]]]]]]]]]. split; [econstructor; eassumption|].
        destruct (mix_text_colors _ _ _ _ _ _ _ T) as [IA IB]. apply (mix_colors _ _ _ F) in IA, IB. destruct IA as [ta [IA TA]], IB as [tb [IB TB]].
        rewrite Forall_forall in OK, FL. eapply mix_flat; [apply (FL ta IA), (OK ta IA), TA | apply (FL tb IB), (OK tb IB), TB | exact E]. }
    split; [|intros c H; apply D; exact H]. intros c. split; [intros H; apply D; exact H|]. intros H. rewrite parse_color_fn. inversion H; subst.
    + rewrite (function_named _ _ _ H2). apply relative_iff; [eapply function_space; eassumption|exact OK|]. left. assumption.
    + rewrite (function_named _ _ _ H2). apply relative_iff; [eapply function_space; eassumption|exact OK|]. right. eauto 6.
    + change (parse_function "color" (map fl (Ident name0 :: args0))) with (whole (parse_predefined (map fl (Ident name0 :: args0)))).
      apply predefined_text_iff; [exact OK|exact FL|]. left. eauto 6.
    + match goal with |- parse_function "color" ?l = _ => change (parse_function "color" l) with (whole (parse_predefined l)) end.
      apply predefined_text_iff; [exact OK|exact FL|]. right. eauto 9.
    + match goal with |- parse_function _ ?l = _ => change (parse_function "light-dark" l) with (whole (parse_light_dark l)) end.
      apply light_dark_iff; [exact OK|exact FL|]. eauto 9.
    + match goal with |- parse_function _ ?l = _ => change (parse_function "color-mix" l) with (k <- mix_tokens l ;; of_option (parse_color_mix k)) end.
      apply mix_iff; [exact OK|]. exists l, s, m, p1, a, p2, b, q1, q2. auto.
Qed.
Lemma parse_iff t c : proper t -> (parse_color t = Ok c <-> color_text read_dialect t c).
Proof. intros P. apply read_iff. exact P. Qed.

(** ** What CSS says *)
Notation css_d := css_dialect.
Lemma means_css e t x : means css_d no_keywords e t x -> means rd no_keywords e t x.
Proof.
  intros H. remember no_keywords as k. induction H; subst; try (econstructor; eauto; fail).
Qed.
Lemma value_css t ty x : value_of css_d no_keywords t ty x -> value_of rd no_keywords t ty x.
Proof. destruct 1; constructor; auto using means_css. Qed.
Lemma component_css b t x : component css_d no_keywords b t x -> component rd no_keywords b t x.
Proof. destruct 1; [apply CNumber|apply CPercentage|apply CNone]; auto using value_css. Qed.
Lemma hue_component_css t x : hue_component css_d no_keywords t x -> hue_component rd no_keywords t x.
Proof. destruct 1; [apply HNumber|apply HAngle|apply HNone]; auto using value_css. Qed.
Lemma alpha_css l a : alpha_text css_d no_source l a -> alpha_text rd no_source l a.
Proof. destruct 1; [apply (AlphaOmitted rd no_source)|]. eapply AlphaGiven; [apply component_css; eassumption|assumption]. Qed.
Lemma old_alpha_css l a : old_alpha_text css_d l a -> old_alpha_text rd l a.
Proof. destruct 1; [constructor|]. econstructor; [apply component_css; eassumption|intros _; exact I|assumption]. Qed.
Lemma percent_css t x : percent_only css_d t x -> percent_only rd t x.
Proof. intros [[v [V E]]|[[] _]]. left. exists v. auto using value_css. Qed.
Lemma body_css s args c : body css_d no_source s args c -> body rd no_source s args c.
Proof.
  destruct 1.
  - eapply LabText; eauto using component_css, alpha_css.
  - eapply LchText; eauto using component_css, hue_component_css, alpha_css.
  - eapply RgbText; eauto using component_css, alpha_css.
  - eapply RgbOld; eauto using value_css, old_alpha_css.
  - eapply HueText; eauto using component_css, hue_component_css, alpha_css.
  - eapply HslOld; eauto using hue_component_css, percent_css, old_alpha_css.
Qed.
Lemma careful_args name args : careful (Fn name args) -> (forall o l, args = Ident "from" :: o :: l -> careful_body name l) /\ Forall careful args.
Proof.
  cbn [careful]. intros [A B]. split; [exact A|]. clear A. induction args as [|t args IH]; cbn [fold_right] in B; [constructor|]. destruct B. constructor; auto.
Qed.
(** Keywords in both dialects *)
Lemma keywords_other s c w t x : keywords_of css_d s c w t x -> w <> "h" -> keywords_of rd s c w t x.
Proof.
  unfold keywords_of. intros H N. destruct s; cbn [names List.app List.combine In css_dialect read_dialect hue_type] in *;
    repeat (destruct H as [H|H]; [inversion H; subst; try congruence; tauto|]); contradiction.
Qed.
Lemma keywords_hue s c t x : keywords_of css_d s c "h" t x -> keywords_of rd s c "h" TAngle x.
Proof.
  unfold keywords_of. intros H. destruct s; cbn [names List.app List.combine In css_dialect read_dialect hue_type] in *;
    repeat (destruct H as [H|H]; [inversion H; subst; try congruence; tauto|]); contradiction.
Qed.
Lemma means_no_names d k k' e t x : no_names e -> means d k e t x -> means rd k' e t x.
Proof.
  intros N H. revert k' N. induction H; cbn [no_names]; intros k' N; try contradiction; try destruct N; try (econstructor; eauto; fail).
Qed.
Definition clean (t : token) : Prop := forall e, t = Calc e -> no_names e.
Lemma value_relative s c t ty x : clean t -> t <> Ident "h" -> value_of css_d (keywords_of css_d s c) t ty x -> value_of rd (keywords_of rd s c) t ty x.
Proof.
  intros C N H. destruct H; constructor.
  - eapply means_no_names; [apply C; reflexivity|eassumption].
  - apply keywords_other; [assumption|]. intros ->. congruence.
Qed.
Lemma component_relative s c b t x : clean t -> t <> Ident "h" -> component css_d (keywords_of css_d s c) b t x -> component rd (keywords_of rd s c) b t x.
Proof. intros C N H. destruct H; [apply CNumber|apply CPercentage|apply CNone]; apply value_relative; assumption. Qed.
Lemma hue_relative s c t x : clean t -> hue_component css_d (keywords_of css_d s c) t x -> hue_component rd (keywords_of rd s c) t x.
Proof.
  intros C H. destruct H as [t x H|t x H|]; [| |apply HNone].
  - inversion H; subst.
    + apply HNumber. constructor.
    + apply HNumber. constructor. eapply means_no_names; [apply C; reflexivity|eassumption].
    + destruct (string_dec s0 "h") as [->|N]; [apply HAngle|apply HNumber]; constructor; [eapply keywords_hue; eassumption|apply keywords_other; assumption].
  - apply HAngle. apply value_relative; [exact C| |exact H]. intros ->. inversion H; subst. clear - H1. unfold keywords_of in H1.
    destruct s; cbn [names List.app List.combine In css_dialect hue_type] in H1; repeat (destruct H1 as [H1|H1]; [discriminate|]); contradiction.
Qed.
Lemma alpha_relative s c w w' l a : (forall e, In (Calc e) l -> no_names e) -> ~ In (Ident "h") l -> In Slash l -> alpha_text css_d (Source (keywords_of css_d s c) w false) l a ->
  alpha_text rd (Source (keywords_of rd s c) w' false) l a.
Proof.
  intros C N S H. destruct H as [|t v a H K]; [contradiction|]. eapply AlphaGiven; [|exact K]. apply component_relative; [|intros ->; apply N; cbn; tauto|exact H].
  intros e ->. apply C. cbn. tauto.
Qed.
Lemma clean_in l t : (forall e, In (Calc e) l -> no_names e) -> In t l -> clean t.
Proof. intros C I e ->. apply C. exact I. Qed.
Lemma nth_in_h l : In (Ident "h") l -> exists n, nth_error l n = Some (Ident "h").
Proof. apply In_nth_error. Qed.
Lemma component_not_slash d k b t x : component d k b t x -> t <> Slash.
Proof. intros H ->. inversion H; subst; match goal with H : value_of _ _ _ _ _ |- _ => inversion H end. Qed.
Lemma hue_not_slash d k t x : hue_component d k t x -> t <> Slash.
Proof. intros H ->. inversion H; subst; match goal with H : value_of _ _ _ _ _ |- _ => inversion H end. Qed.
Lemma place_of name s : In (name, s) function_names -> hue_place name = if space_eq_dec s HSL then 0%nat else if space_eq_dec s HWB then 0%nat else 2%nat.
Proof. cbn [In function_names]. intros F. repeat (destruct F as [F|F]; [inversion F; subst; reflexivity|]). contradiction. Qed.
Lemma body_relative' name sp s c w w' l out : sp = s -> In (name, s) function_names -> careful_body name l -> body css_d (Source (keywords_of css_d sp c) w false) s l out ->
  body rd (Source (keywords_of rd sp c) w' false) s l out.
Proof.
  intros Es F [Sl [C P]] H.
  assert (K : forall t1 t2 t3 la, l = t1 :: t2 :: t3 :: la -> t1 <> Slash -> t2 <> Slash -> t3 <> Slash ->
    (clean t1 /\ clean t2 /\ clean t3 /\ (forall e, In (Calc e) la -> no_names e) /\ ~ In (Ident "h") la /\ In Slash la /\ t2 <> Ident "h") /\
    (hue_place name = 2%nat -> t1 <> Ident "h") /\ (hue_place name = 0%nat -> t3 <> Ident "h")).
  { intros t1 t2 t3 la -> N1 N2 N3. split.
    - repeat split; try (apply (clean_in _ _ C); cbn; tauto).
      + intros e I. apply C. cbn. tauto.
      + intros I. apply nth_in_h in I. destruct I as [n I]. specialize (P (S (S (S n))) I). unfold hue_place in P. destruct (in_dec _ _ _); discriminate.
      + cbn in Sl. destruct Sl as [->|[->|[->|S]]]; congruence.
      + intros ->. specialize (P 1%nat eq_refl). unfold hue_place in P. destruct (in_dec _ _ _); discriminate.
    - split; intros E ->; [specialize (P 0%nat eq_refl)|specialize (P 2%nat eq_refl)]; rewrite E in P; discriminate. }
  destruct H.
  - destruct (K t1 t2 t3 la eq_refl) as [[C1 [C2 [C3 [CA [NA [SA N2]]]]]] [N1 _]]; try (eapply component_not_slash; eassumption).
    assert (NF : ~ In (Ident "h") (t1 :: t2 :: t3 :: la) \/ True) by (right; exact I). clear NF.
    assert (HP : hue_place name = 2%nat).
    { rewrite (place_of _ _ F). clear - H. destruct H as [H|[H|[]]]; apply (f_equal fst) in H; cbn [fst] in H; subst s; reflexivity. }
    specialize (N1 HP). assert (N3 : t3 <> Ident "h").
    { intros ->. clear - H H3 Es. subst sp. inversion H3; subst; match goal with H : value_of _ _ _ _ _ |- _ => inversion H; subst; match goal with H : kw _ _ _ _ |- _ => revert H end end;
        cbn in H; repeat (destruct H as [H|H]; [inversion H; subst; clear; unfold keywords_of; cbn; intros K; repeat (destruct K as [K|K]; [discriminate|]); contradiction|]); contradiction. }
    eapply LabText; try eassumption; try (apply component_relative; eassumption). eapply alpha_relative; eassumption.
  - destruct (K t1 t2 t3 la eq_refl) as [[C1 [C2 [C3 [CA [NA [SA N2]]]]]] [N1 _]]; try (eapply component_not_slash; eassumption); try (eapply hue_not_slash; eassumption).
    assert (HP : hue_place name = 2%nat).
    { rewrite (place_of _ _ F). clear - H. destruct H as [H|[H|[]]]; apply (f_equal fst) in H; cbn [fst] in H; subst s; reflexivity. }
    specialize (N1 HP). eapply LchText; try eassumption; try (apply component_relative; eassumption); try (apply hue_relative; eassumption). eapply alpha_relative; eassumption.
  - destruct (K t1 t2 t3 la eq_refl) as [[C1 [C2 [C3 [CA [NA [SA N2]]]]]] _]; try (eapply component_not_slash; eassumption).
    subst sp. assert (NH : forall t v, component css_d (keywords_of css_d RGB c) 255 t v -> t <> Ident "h").
    { intros t v Hc ->. clear - Hc. inversion Hc; subst; match goal with H : value_of _ _ _ _ _ |- _ => inversion H; subst; match goal with H : keywords_of _ _ _ _ _ _ |- _ => revert H end end;
        unfold keywords_of; cbn; intros K; repeat (destruct K as [K|K]; [discriminate|]); contradiction. }
    eapply RgbText; try eassumption; try (apply component_relative; [assumption|eapply NH; eassumption|assumption]). eapply alpha_relative; eassumption.
  - discriminate.
  - destruct (K t1 t2 t3 la eq_refl) as [[C1 [C2 [C3 [CA [NA [SA N2]]]]]] [_ N3]]; try (eapply component_not_slash; eassumption); try (eapply hue_not_slash; eassumption).
    assert (HP : hue_place name = 0%nat).
    { rewrite (place_of _ _ F). clear - H. destruct H as [<-|[<-|[]]]; reflexivity. }
    specialize (N3 HP). eapply HueText; [exact H | apply hue_relative; eassumption | apply component_relative; [exact C2|exact N2|eassumption] | eassumption
      | apply component_relative; [exact C3|exact N3|eassumption] | eassumption | eapply alpha_relative; eassumption | eassumption].
  - discriminate.
Qed.
Lemma body_relative name s c w w' l out : In (name, s) function_names -> careful_body name l -> body css_d (Source (keywords_of css_d s c) w false) s l out ->
  body rd (Source (keywords_of rd s c) w' false) s l out.
Proof. apply body_relative'. reflexivity. Qed.
Lemma color_relative name s c w w' l out : In (name, s) predefined_names -> careful_body "color" (Ident name :: l) -> color_body css_d (Source (keywords_of css_d s c) w false) s l out ->
  color_body rd (Source (keywords_of rd s c) w' false) s l out.
Proof.
  intros F [Sl [C _]] H. destruct H.
  assert (NH : forall t v, component css_d (keywords_of css_d s c) 1 t v -> t <> Ident "h").
  { intros t v Hc ->. clear - Hc F. inversion Hc; subst; match goal with H : value_of _ _ _ _ _ |- _ => inversion H; subst; match goal with H : keywords_of _ _ _ _ _ _ |- _ => revert H end end;
      cbn in F; repeat (destruct F as [F|F]; [inversion F; subst; clear; unfold keywords_of; cbn; intros K; repeat (destruct K as [K|K]; [discriminate|]); contradiction|]); contradiction. }
  assert (CL : forall t, In t (t1 :: t2 :: t3 :: la) -> clean t) by (intros t I; apply (clean_in _ _ C); right; exact I).
  constructor; try (apply component_relative; [apply CL; cbn; tauto|eapply NH; eassumption|assumption]).
  match goal with H : alpha_text _ _ _ _ |- _ => destruct H as [|t v a HC HK] end.
  - exfalso. cbn in Sl. destruct Sl as [E|[E|[E|[E|[]]]]]; try discriminate; subst; match goal with H : component _ _ _ Slash _ |- _ => apply component_not_slash in H; congruence end.
  - eapply AlphaGiven; [|exact HK]. apply component_relative; [apply CL; cbn; tauto|eapply NH; exact HC|exact HC].
Qed.
Lemma halves_mono (R R' : css -> css -> Prop) a x : (forall a x, R a x -> R' a x) -> halves R a x -> halves R' a x.
Proof. intros M. induction 1; constructor; auto. Qed.
Lemma text_css t : careful t -> forall c, color_text css_d t c -> color_text rd t c.
Proof.
  induction t as [t A|name args IH] using token_induction; intros N c H.
  - inversion H; subst; [constructor|..]; exfalso; eapply A; reflexivity.
  - apply careful_args in N. destruct N as [NF N]. rewrite Forall_forall in IH, N. inversion H; subst.
    + eapply TextAbsolute; eauto using body_css.
    + eapply TextRelative; [eassumption|apply IH; [right; left; reflexivity|apply N; right; left; reflexivity|eassumption]|].
      eapply halves_mono; [|eassumption]. intros a x [src [S B]]. specialize (NF _ _ eq_refl). destruct S.
      * eexists. split; [eapply (SourceOf rd); [eassumption|assumption|reflexivity]|]. subst. eapply body_relative; eassumption.
      * eexists. split; [eapply (SourceOfHue rd); [eassumption|assumption|reflexivity|subst; eassumption]|]. subst. eapply body_relative; eassumption.
    + eapply TextColor; [eassumption|]. match goal with H : color_body _ _ _ _ _ |- _ => destruct H end. constructor; auto using component_css, alpha_css.
    + eapply TextColorRelative; [eassumption|apply IH; [right; left; reflexivity|apply N; right; left; reflexivity|eassumption]|].
      eapply halves_mono; [|eassumption]. intros a x [src [S B]]. specialize (NF _ _ eq_refl). destruct S.
      eexists. split; [eapply (ColorSource rd); [eassumption|reflexivity]|]. subst. eapply color_relative; eassumption.
    + constructor; (apply IH; [cbn; tauto|apply N; cbn; tauto|assumption]).
    + match goal with F : Forall2 _ args _ |- _ => rename F into FF end. eapply TextMix; eauto. clear - IH N FF. induction FF as [|t k args l H F IHF]; constructor.
      * destruct H; constructor; auto using value_css. apply IH; [left; reflexivity|apply N; left; reflexivity|assumption].
      * apply IHF; intros; [apply IH|apply N]; try right; assumption.
Qed.
Lemma parse_css t c : proper t -> careful t -> color_text css_d t c -> parse_color t = Ok c.
Proof. intros P N H. apply parse_iff; [exact P|]. apply text_css; assumption. Qed.

(** ** Printing *)
Definition unit_num (x : num) : Prop := match x with Some v => 0 <= v <= 1 | None => True end.
Definition between (lo hi : R) (x : num) : Prop := match x with Some v => lo <= v <= hi | None => True end.
Definition positive (x : num) : Prop := match x with Some v => 0 <= v | None => True end.
Definition ok_css (c : css) : Prop :=
  match c with
  | Plain s c =>
      between 0 1 (alpha c) /\
      match s with
      | LAB | OKLAB => positive (c1 c) | LCH | OKLCH => positive (c1 c) /\ positive (c2 c)
      | RGB => between 0 255 (c1 c) /\ between 0 255 (c2 c) /\ between 0 255 (c3 c)
      | HSL | HWB => between 0 100 (c2 c) /\ between 0 100 (c3 c)
      | _ => True
      end
  | LightDark _ _ => False
  | _ => simple c
  end.
Lemma clamped_between lo hi v w : lo <= hi -> clamped lo hi v w -> between lo hi w.
Proof. intros L. destruct v as [x|], w as [y|]; cbn; try tauto. intros ->. unfold Rmax, Rmin. destruct (Rle_dec x hi); destruct (Rle_dec lo _); lra. Qed.
Lemma raised_positive v w : raised v w -> positive w.
Proof. destruct v as [x|], w as [y|]; cbn; try tauto. intros [A B]. destruct (Rle_dec 0 x); [rewrite A; lra | rewrite B; lra]. Qed.
Lemma nearest_range x n : nearest_byte x n -> (0 <= n <= 255)%Z.
Proof. intros H. destruct (channel_byte x) as [m [_ [B R]]]. rewrite (nearest_byte_fun _ _ _ H B). exact R. Qed.
Lemma nearest_between v w : nearest_num v w -> between 0 255 w.
Proof.
  destruct v as [x|], w as [y|]; cbn; try tauto. intros [n [-> B]]. apply nearest_range in B. destruct B as [L U]. apply IZR_le in L, U. lra.
Qed.
Lemma alpha_ok d src l a : between 0 1 (omitted src) -> alpha_text d src l a -> between 0 1 a.
Proof. intros O [|t v w _ C]; [exact O|]. eapply clamped_between; [|exact C]. lra. Qed.
Lemma old_alpha_ok d l a : old_alpha_text d l a -> between 0 1 a.
Proof. intros [|t v w _ _ C]; [cbn; lra|]. eapply clamped_between; [|exact C]. lra. Qed.
Lemma rgb_ok r g b a c : between 0 1 a -> rgb_color r g b a c -> ok_css c.
Proof.
  intros A H. destruct H.
  - cbn. repeat split; try (eapply nearest_range; eassumption).
    all: match goal with |- (0 <= ?n)%Z => idtac | |- (?n <= 255)%Z => idtac end; match goal with H : nearest_byte _ ?n |- context [?n] => apply nearest_range in H; lia end.
  - split; [exact A|]. cbn. repeat split; eapply nearest_between; eassumption.
Qed.
Lemma unit_range x : (0 <= clamp_unit x <= 255)%Z.
Proof. eapply nearest_range. apply floor_256. Qed.
Lemma bytes_ok c : ok_css (to_bytes c).
Proof.
  unfold to_bytes. destruct (resolved (resolve_srgb c)) as [[r g] b]. cbn. repeat split; apply unit_range.
Qed.
Lemma hue_ok s h x y a c : In s [HSL; HWB] -> between 0 1 a -> between 0 100 x -> between 0 100 y -> hue_color s h x y a c -> ok_css c.
Proof.
  intros I A X Y H. destruct H.
  - destruct I as [<-|[<-|[]]]; cbn [into_css]; apply bytes_ok.
  - split; [exact A|]. destruct I as [<-|[<-|[]]]; split; assumption.
Qed.
Lemma body_ok d src s args c : between 0 1 (omitted src) -> body d src s args c -> ok_css c.
Proof.
  intros O H. destruct H.
  - split; [eapply alpha_ok; eassumption|]. apply raised_positive in H1. cbn in H. destruct H as [H|[H|[]]]; inversion H; subst; exact H1.
  - split; [eapply alpha_ok; eassumption|]. apply raised_positive in H1, H3. cbn in H. destruct H as [H|[H|[]]]; inversion H; subst; split; assumption.
  - eapply rgb_ok; [|eassumption]. eapply alpha_ok; eassumption.
  - eapply rgb_ok; [|eassumption]. eapply old_alpha_ok; eassumption.
  - eapply hue_ok; [exact H| | | |eassumption]; [eapply alpha_ok; eassumption | eapply clamped_between; [|eassumption]; lra ..].
  - eapply hue_ok; [left; reflexivity| | | |eassumption]; [eapply old_alpha_ok; eassumption | eapply clamped_between; [|eassumption]; lra ..].
Qed.
Lemma color_body_ok d src s args c : In s (map snd predefined_names) -> between 0 1 (omitted src) -> color_body d src s args c -> ok_css c.
Proof.
  intros I O H. destruct H. split; [eapply alpha_ok; eassumption|]. cbn in I. repeat (destruct I as [<-|I]; [exact Logic.I|]). contradiction.
Qed.
(** A colour that was read: one that is fine, or a pair of two *)
Definition read_css (c : css) : Prop := match c with LightDark a b => ok_css a /\ ok_css b | _ => ok_css c end.
Lemma ok_read c : ok_css c -> read_css c.
Proof. destruct c; try (intros H; exact H). contradiction. Qed.
Lemma halves_ok (R : css -> css -> Prop) a x : (forall a x, R a x -> ok_css x) -> halves R a x -> flat_css a -> read_css x.
Proof.
  intros N H F. destruct H as [a b x y H1 H2|a x _ H].
  - destruct F as [Fa Fb]. apply (halves_inv _ _ _ Fa) in H1. apply (halves_inv _ _ _ Fb) in H2. split; eapply N; eassumption.
  - apply ok_read. eapply N. exact H.
Qed.
Lemma no_mix_args name args : no_mix (Fn name args) -> name <> "color-mix" /\ Forall no_mix args.
Proof.
  cbn [no_mix]. intros [A B]. split; [exact A|]. clear A. induction args as [|t args IH]; cbn [fold_right] in B; [constructor|]. destruct B. constructor; auto.
Qed.
Lemma source_one s c src : source_of rd s c src -> between 0 1 (omitted src).
Proof. destruct 1; cbn; lra. Qed.
Lemma color_source_one s c src : color_source rd s c src -> between 0 1 (omitted src).
Proof. destruct 1; cbn; lra. Qed.
Lemma read_light c : read_css c -> ok_css (light c) /\ ok_css (dark c).
Proof. destruct c; cbn; tauto. Qed.
Lemma text_read t : proper t -> no_mix t -> forall c, color_text rd t c -> read_css c.
Proof.
  induction t as [t A|name args IH] using token_induction; intros P N c H.
  - inversion H; subst; [cbn in P; destruct c; try contradiction; exact P|..]; exfalso; eapply A; reflexivity.
  - apply no_mix_args in N. destruct N as [NM N]. pose proof (proper_args _ _ P) as PA. rewrite Forall_forall in IH, N, PA.
    assert (FL : forall o co, In o args -> color_text rd o co -> flat_css co).
    { intros o co I T. destruct (read_iff o (PA _ I)) as [O F]. apply F, O, T. }
    inversion H; subst.
    + apply ok_read. eapply (body_ok rd no_source); [cbn; lra|eassumption].
    + eapply halves_ok; [|eassumption|eapply FL; [right; left; reflexivity|eassumption]]. intros a x [src [S B]]. eapply body_ok; [eapply source_one; eassumption|eassumption].
    + apply ok_read. eapply (color_body_ok rd no_source); [|cbn; lra|eassumption]. match goal with E : In (_, s) predefined_names |- _ => exact (in_map snd _ _ E) end.
    + eapply halves_ok; [|eassumption|eapply FL; [right; left; reflexivity|eassumption]].
      intros a x [src [S B]]. eapply color_body_ok; [|eapply color_source_one; eassumption|eassumption]. match goal with E : In (_, s) predefined_names |- _ => exact (in_map snd _ _ E) end.
    + assert (FA : flat_css ca) by (eapply FL; [left; reflexivity|assumption]). assert (FB : flat_css cb) by (eapply FL; [right; right; left; reflexivity|assumption]).
      rewrite (used_light _ FA), (used_dark _ FB). split.
      * apply (read_light ca). eapply (IH a); [left; reflexivity|apply PA; left; reflexivity|apply N; left; reflexivity|assumption].
      * apply (read_light cb). eapply (IH b); [cbn; tauto|apply PA; cbn; tauto|apply N; cbn; tauto|assumption].
    + contradiction.
Qed.

Lemma printed_num x : component css_d no_keywords 1 (print_num x) x.
Proof. destruct x; [apply CNumber; constructor|apply CNone]. Qed.
Lemma printed_any b x : component css_d no_keywords b (print_num x) x.
Proof. destruct x; [apply CNumber; constructor|apply CNone]. Qed.
Lemma printed_hue x : hue_component css_d no_keywords (print_num x) x.
Proof. destruct x; [apply HNumber; constructor|apply HNone]. Qed.
Lemma printed_alpha a : between 0 1 a -> exists a', alpha_text css_d no_source (print_alpha a) a' /\ same_alpha a a'.
Proof.
  destruct a as [v|]; cbn [print_alpha between]; intros A.
  - destruct (ltb f32_epsilon (Rabs (v - 1))) eqn:E.
    + exists (Some v). split; [|constructor]. eapply AlphaGiven; [apply CNumber; constructor|]. cbn. unfold Rmax, Rmin. destruct (Rle_dec v 1); destruct (Rle_dec 0 _); lra.
    + apply ltb_false in E. exists (Some 1). split; [apply (AlphaOmitted css_d no_source)|]. apply SameOne. exact E.
  - exists None. split; [|constructor]. eapply AlphaGiven; [apply CNone|exact I].
Qed.
Lemma positive_raised x : positive x -> raised x x.
Proof. destruct x; cbn; lra. Qed.
Lemma printed_percent lb x : lb <> 0 -> component css_d no_keywords lb (match nmul x (Some (1 / lb)) with Some v => Percentage v | None => Ident "none" end) x.
Proof.
  intros N. destruct x as [v|]; cbn [nmul lift2]; [|apply CNone]. replace (Some v) with (option_map (fun w => w * lb) (Some (v * (1 / lb)))); [apply CPercentage; constructor|].
  cbn. f_equal. field. exact N.
Qed.
Lemma printed_percent_one x : component css_d no_keywords 1 (match x with Some v => Percentage v | None => Ident "none" end) x.
Proof.
  destruct x as [v|]; [|apply CNone]. replace (Some v) with (option_map (fun w => w * 1) (Some v)); [apply CPercentage; constructor|]. cbn. f_equal. ring.
Qed.
Lemma hsl_channel_unit h s l n v : 0 <= s <= 1 -> 0 <= l <= 1 -> hsl_channel h s l n v -> 0 <= v <= 1.
Proof.
  intros S L [k [j [_ [_ ->]]]].
  set (m := Rmax (-1) _).
  assert (M : -1 <= m <= 1) by (unfold m, Rmax, Rmin; repeat match goal with |- context[Rle_dec ?a ?b] => match a with context[Rle_dec] => fail 1 | _ => match b with context[Rle_dec] => fail 1 | _ => destruct (Rle_dec a b) end end end; lra).
  assert (Q : 0 <= Rmin l (1 - l) /\ Rmin l (1 - l) <= l /\ Rmin l (1 - l) <= 1 - l) by (unfold Rmin; destruct (Rle_dec l (1 - l)); lra).
  set (q := Rmin l (1 - l)) in *. assert (0 <= s * q <= q) by nra. nra.
Qed.
Lemma hsl_unit v : (let '(h, s, l) := v in 0 <= s <= 100 /\ 0 <= l <= 100) -> within_unit (hsl_srgb v).
Proof.
  destruct v as [[h s] l]. intros [S L]. pose proof (hsl_srgb_spec (h, s, l)) as H. destruct (hsl_srgb (h, s, l)) as [[r g] b]. destruct H as [A [B C]].
  repeat split; try (apply hsl_channel_unit in A; lra); try (apply hsl_channel_unit in B; lra); apply hsl_channel_unit in C; lra.
Qed.
Lemma hwb_unit v : (let '(h, w, b) := v in 0 <= w <= 100 /\ 0 <= b <= 100) -> within_unit (hwb_srgb v).
Proof.
  destruct v as [[h w] b]. intros [W B]. unfold hwb_srgb. destruct (ltb (w / 100 + b / 100) 1) eqn:E.
  - apply ltb_iff in E. pose proof (hsl_unit (h, 100, 50) ltac:(cbn; lra)) as U. destruct (hsl_srgb (h, 100, 50)) as [[x y] z]. destruct U as [X [Y Z]]. cbn. repeat split; nra.
  - apply ltb_false in E. assert (G : 0 <= w / 100 / (w / 100 + b / 100) <= 1).
    { split; [apply Rmult_le_pos; [lra|left; apply Rinv_0_lt_compat; lra]|]. apply (Rmult_le_reg_r (w / 100 + b / 100)); [lra|]. unfold Rdiv at 1. rewrite Rmult_assoc, Rinv_l by lra. lra. }
    cbn. auto.
Qed.
Lemma between_resolve lo hi x : lo <= 0 -> 0 <= hi -> between lo hi x -> lo <= resolve_num x <= hi.
Proof. destruct x; cbn; lra. Qed.
Lemma rgb_bytes_full x y z a : 0 <= x <= 255 -> 0 <= y <= 255 -> 0 <= z <= 255 ->
  rgb_bytes (full (x, y, z) a) = Bytes (clamp_floor_256 x) (clamp_floor_256 y) (clamp_floor_256 z) (clamp_unit a).
Proof.
  intros X Y Z. unfold rgb_bytes, resolve. change (resolve_missing (full (x, y, z) a)) with (full (x, y, z) a). cbn [in_gamut full c1 c2 c3].
  rewrite !(proj2 (within_iff _ _ _)) by assumption. reflexivity.
Qed.
Lemma byte_nearest x : 0 <= x <= 255 -> nearest (clamp_floor_256 x) (x / 255).
Proof.
  intros X. pose proof (clamp_unit_nearest (x / 255)) as H. unfold clamp_unit in H. replace (x / 255 * 255) with x in H by field. exact H.
Qed.
Lemma resolve_bytes c : rgb_bytes c = rgb_bytes (full (resolved c) (resolve_num (alpha c))).
Proof. reflexivity. Qed.
Lemma printed_bytes s c : In s [RGB; HSL; HWB] -> ok_css (Plain s c) -> exists r g b a,
  rgb_bytes (convert s RGB c) = Bytes r g b a /\ reads_as (Plain s c) (Bytes r g b a) /\ simple (Bytes r g b a).
Proof.
  intros I [A K]. destruct c as [x y z a]. cbn [alpha c1 c2 c3] in *. apply between_resolve in A; try lra.
  assert (D : exists u v w, rgb_bytes (convert s RGB (Comps x y z a)) = rgb_bytes (full (u * 255, v * 255, w * 255) (resolve_num a)) /\
    within_unit (u, v, w) /\ in_srgb s (resolve_num x, resolve_num y, resolve_num z) (u, v, w)).
  { cbn in I. destruct I as [<-|[<-|[<-|[]]]].
    - destruct K as [X [Y Z]]. apply between_resolve in X, Y, Z; try lra. exists (resolve_num x / 255), (resolve_num y / 255), (resolve_num z / 255).
      split; [|split; [cbn; repeat split; lra | reflexivity]]. change (convert RGB RGB (Comps x y z a)) with (Comps x y z a). rewrite resolve_bytes. unfold resolved. cbn [c1 c2 c3 alpha].
      f_equal. f_equal. apply f_equal2; [apply f_equal2; field|field].
    - destruct K as [Y Z]. apply between_resolve in Y, Z; try lra. pose proof (hsl_unit (resolve_num x, resolve_num y, resolve_num z) (conj Y Z)) as U.
      pose proof (hsl_srgb_spec (resolve_num x, resolve_num y, resolve_num z)) as S.
      change (convert HSL RGB (Comps x y z a)) with (scale_rgb 255 (full (hsl_srgb (resolve_num x, resolve_num y, resolve_num z)) (resolve_num a))).
      destruct (hsl_srgb _) as [[u v] w]. exists u, v, w. split; [reflexivity|]. split; assumption.
    - destruct K as [Y Z]. apply between_resolve in Y, Z; try lra. pose proof (hwb_unit (resolve_num x, resolve_num y, resolve_num z) (conj Y Z)) as U.
      pose proof (hwb_srgb_spec (resolve_num x, resolve_num y, resolve_num z)) as S.
      change (convert HWB RGB (Comps x y z a)) with (scale_rgb 255 (full (hwb_srgb (resolve_num x, resolve_num y, resolve_num z)) (resolve_num a))).
      destruct (hwb_srgb _) as [[u v] w]. exists u, v, w. split; [reflexivity|]. split; assumption. }
  destruct D as [u [v [w [E [[U [V W]] S]]]]]. rewrite E, rgb_bytes_full by lra. eexists _, _, _, _. split; [reflexivity|]. split.
  - assert (B : forall x, 0 <= x <= 1 -> nearest (clamp_floor_256 (x * 255)) x).
    { intros t T. replace t with (t * 255 / 255) at 2 by field. apply byte_nearest. lra. }
    eapply ReadsBytes; try apply value_resolve; [exact S | apply B; assumption ..].
  - repeat split; apply (nearest_range _ _ (floor_256 _)).
Qed.
Lemma named_in name s : In (name, s) predefined_names -> ~ In s [RGB; HSL; HWB].
Proof. cbn. intros H. repeat (destruct H as [H|H]; [inversion H; subst; clear; intros H; repeat (destruct H as [H|H]; [discriminate|]); exact H|]). contradiction. Qed.
Lemma printed_predefined name s c : In (name, s) predefined_names -> ok_css (Plain s c) ->
  exists c', color_text css_d (write_predefined name c) c' /\ reads_as (Plain s c) c' /\ is_pair c' = false.
Proof.
  intros N [A _]. destruct c as [x y z a]. cbn [alpha] in A. destruct (printed_alpha a A) as [a' [T S]].
  exists (Plain s (Comps x y z a')). split; [|split; [constructor; [eapply named_in; exact N|exact S]|reflexivity]].
  unfold write_predefined. cbn [c1 c2 c3 alpha List.app]. eapply TextColor; [exact N|]. constructor; try apply printed_any. exact T.
Qed.
Lemma printed_rgb s c : In s [RGB; HSL; HWB] -> ok_css (Plain s c) ->
  exists c', color_text css_d (Leaf (rgb_bytes (convert s RGB c))) c' /\ reads_as (Plain s c) c' /\ is_pair c' = false.
Proof.
  intros I K. destruct (printed_bytes s c I K) as [r [g [b [a [E [R _]]]]]]. rewrite E. exists (Bytes r g b a). split; [apply TextLeaf|]. split; [exact R|reflexivity].
Qed.
Lemma printed_lab name s lb ab c t1 : In (name, s) function_names -> In (s, (lb, ab)) lab_bases -> ok_css (Plain s c) -> component css_d no_keywords lb t1 (c1 c) ->
  exists c', color_text css_d (Fn name ([t1; print_num (c2 c); print_num (c3 c)] ++ print_alpha (alpha c))%list) c' /\ reads_as (Plain s c) c' /\ is_pair c' = false.
Proof.
  intros N I [A P] C. destruct c as [x y z a]. cbn [alpha c1 c2 c3] in *. destruct (printed_alpha a A) as [a' [T S]].
  assert (NI : ~ In s [RGB; HSL; HWB] /\ positive x).
  { destruct I as [I|[I|[]]]; inversion I; subst; (split; [clear; cbn; intros H; repeat (destruct H as [H|H]; [discriminate|]); exact H | exact P]). }
  destruct NI as [NI Px]. exists (Plain s (Comps x y z a')). split; [|split; [constructor; assumption|reflexivity]].
  eapply TextAbsolute; [exact N|]. cbn [List.app]. eapply LabText; [exact I|exact C|apply positive_raised; exact Px|apply printed_any|apply printed_any|exact T].
Qed.
Lemma printed_lch name s lb cb c t1 : In (name, s) function_names -> In (s, (lb, cb)) lch_bases -> ok_css (Plain s c) -> component css_d no_keywords lb t1 (c1 c) ->
  exists c', color_text css_d (Fn name ([t1; print_num (c2 c); print_num (c3 c)] ++ print_alpha (alpha c))%list) c' /\ reads_as (Plain s c) c' /\ is_pair c' = false.
Proof.
  intros N I [A P] C. destruct c as [x y z a]. cbn [alpha c1 c2 c3] in *. destruct (printed_alpha a A) as [a' [T S]].
  assert (NI : ~ In s [RGB; HSL; HWB] /\ positive x /\ positive y).
  { destruct I as [I|[I|[]]]; inversion I; subst; (split; [clear; cbn; intros H; repeat (destruct H as [H|H]; [discriminate|]); exact H | exact P]). }
  destruct NI as [NI [Px Py]]. exists (Plain s (Comps x y z a')). split; [|split; [constructor; assumption|reflexivity]].
  eapply TextAbsolute; [exact N|]. cbn [List.app].
  eapply LchText; [exact I|exact C|apply positive_raised; exact Px|apply printed_any|apply positive_raised; exact Py|apply printed_hue|exact T].
Qed.
Lemma printed_one c : ok_css c -> exists c', color_text css_d (print c) c' /\ reads_as c c' /\ is_pair c' = false.
Proof.
  destruct c as [r g b a|s c| | |n]; intros K; try (eexists; split; [constructor|]; split; [constructor; exact K|reflexivity]); [|contradiction].
  destruct s; cbn [print]; unfold write_components.
  - apply (printed_predefined _ SRGB); [cbn; tauto|exact K].
  - apply printed_rgb; [cbn; tauto|exact K].
  - apply (printed_predefined _ SRGBLinear); [cbn; tauto|exact K].
  - apply (printed_predefined _ P3); [cbn; tauto|exact K].
  - apply (printed_predefined _ A98); [cbn; tauto|exact K].
  - apply (printed_predefined _ ProPhoto); [cbn; tauto|exact K].
  - apply (printed_predefined _ Rec2020); [cbn; tauto|exact K].
  - apply (printed_lab _ LAB 100 125); [cbn; tauto|cbn; tauto|exact K|apply printed_percent; lra].
  - apply (printed_lch _ LCH 100 150); [cbn; tauto|cbn; tauto|exact K|apply printed_percent; lra].
  - apply (printed_lab _ OKLAB 1 0.4); [cbn; tauto|cbn; tauto|exact K|apply printed_percent_one].
  - apply (printed_lch _ OKLCH 1 0.4); [cbn; tauto|cbn; tauto|exact K|apply printed_percent_one].
  - apply (printed_predefined _ XYZd50); [cbn; tauto|exact K].
  - apply (printed_predefined _ XYZd65); [cbn; tauto|exact K].
  - apply printed_rgb; [cbn; tauto|exact K].
  - apply printed_rgb; [cbn; tauto|exact K].
Qed.
Lemma used_not_pair d c : is_pair c = false -> used d c = c.
Proof. destruct c; try reflexivity. discriminate. Qed.
Lemma printed c : read_css c -> exists c', color_text css_d (print c) c' /\ reads_as c c'.
Proof.
  intros K. destruct c as [r g b a|s c| |l d|n]; try (destruct (printed_one _ K) as [c' [A [B _]]]; eauto; fail).
  destruct K as [K1 K2]. destruct (printed_one _ K1) as [l' [A [B C]]], (printed_one _ K2) as [d' [A' [B' C']]]. exists (LightDark l' d'). split; [|constructor; assumption].
  cbn [print]. rewrite <- (used_not_pair false l' C) at 1. rewrite <- (used_not_pair true d' C') at 1. constructor; assumption.
Qed.
Lemma print_proper c : read_css c -> proper (print c) /\ careful (print c).
Proof.
  assert (NA : forall a, Forall proper (print_alpha a) /\ Forall careful (print_alpha a)).
  { intros [v|]; cbn [print_alpha]; [destruct (ltb _ _)|]; repeat split; repeat constructor. }
  assert (FR : forall (P : token -> Prop) l, Forall P l -> fold_right (fun t p => P t /\ p) True l) by (intros P l; induction 1; cbn; auto).
  assert (NN : forall x, proper (print_num x) /\ careful (print_num x)) by (intros [v|]; repeat split).
  assert (WC : forall n a b c al, (a = Ident "none" \/ exists v, a = Percentage v) -> proper (Fn n ([a; print_num b; print_num c] ++ print_alpha al)%list) /\ careful (Fn n ([a; print_num b; print_num c] ++ print_alpha al)%list)).
  { intros n a b d al Ha. destruct (NA al) as [P1 P2], (NN b) as [B1 B2], (NN d) as [D1 D2]. split.
    - cbn [proper]. apply FR. repeat constructor; try assumption. destruct Ha as [->|[v ->]]; exact I.
    - cbn [careful]. split; [|apply FR; repeat constructor; try assumption; destruct Ha as [->|[v ->]]; exact I].
      intros o l E. exfalso. injection E as E _ _. subst. destruct Ha as [E|[v E]]; discriminate. }
  assert (WP : forall n c, n <> "from" -> proper (write_predefined n c) /\ careful (write_predefined n c)).
  { intros n d Hn. unfold write_predefined. destruct (NA (alpha d)) as [P1 P2], (NN (c1 d)) as [B1 B2], (NN (c2 d)) as [D1 D2], (NN (c3 d)) as [E1 E2]. split.
    - cbn [proper]. apply FR. repeat constructor; assumption.
    - cbn [careful]. split; [|apply FR; repeat constructor; assumption]. intros o l E. injection E as E _ _. congruence. }
  assert (One : forall c, ok_css c -> proper (print c) /\ careful (print c)).
  { intros d K. destruct d as [r g b a|s d| | |n]; try (split; [exact K|exact I]); [|contradiction].
    destruct s; cbn [print]; unfold write_components; try (apply WP; discriminate);
      try (apply WC; destruct (nmul _ _) as [v|]; eauto; fail); try (apply WC; destruct (c1 d) as [v|]; eauto; fail).
    all: match type of K with ok_css (Plain ?s _) => assert (Is : In s [RGB; HSL; HWB]) by (cbn; tauto) end; destruct (printed_bytes _ d Is K) as [r' [g' [b' [a' [E [R S]]]]]]; rewrite E; split; [exact S|exact I]. }
  intros K. destruct c as [r g b a|s c| |l d|n]; try (apply One; exact K). destruct K as [K1 K2]. destruct (One _ K1) as [A B], (One _ K2) as [A' B'].
  cbn [print]. split; [cbn; auto|]. cbn [careful fold_right]. split; [|auto]. intros o r E. exfalso. injection E as E _ _. destruct l as [| [] | | |]; try discriminate; contradiction.
Qed.
Lemma print_round_trip t c : proper t -> no_mix t -> parse_color t = Ok c ->
  exists c', parse_color (print c) = Ok c' /\ color_text css_d (print c) c' /\ reads_as c c'.
Proof.
  intros P N H. apply parse_iff in H; [|exact P]. apply (text_read _ P N) in H. destruct (printed c H) as [c' [T R]]. exists c'.
  split; [|split; assumption]. destruct (print_proper c H). apply parse_css; assumption.
Qed.

(** ** Where the code departs from CSS *)
Definition half_lab : token := Fn "lab" [Number 50; Number 10; Number 20; Slash; Number 0.5].
Definition lab_of (a : R) : css := Plain LAB (Comps (Some 50) (Some 10) (Some 20) (Some a)).
Lemma half_lab_text d : color_text d half_lab (lab_of 0.5).
Proof.
  eapply TextAbsolute; [left; reflexivity|]. eapply (LabText d no_source LAB 100 125); [left; reflexivity | apply CNumber; constructor | cbn; lra | apply CNumber; constructor | apply CNumber; constructor |].
  eapply AlphaGiven; [apply CNumber; constructor|]. cbn. unfold Rmax, Rmin. destruct (Rle_dec 0.5 1); destruct (Rle_dec 0 _); lra.
Qed.
Lemma lab_self d a : source_of d LAB (lab_of a) (Source (keywords_of d LAB (Comps (Some 50) (Some 10) (Some 20) (Some a))) (default_alpha d (Some a)) false).
Proof.
  apply (SourceOf d LAB (lab_of a) (Comps (Some 50) (Some 10) (Some 20) (Some a)) (Comps (Some 50) (Some 10) (Some 20) (Some a))); [|discriminate|reflexivity].
  exact (InSpacePlain LAB LAB _).
Qed.
Definition from_half : token := Fn "lab" [Ident "from"; half_lab; Ident "l"; Ident "a"; Ident "b"].
Lemma from_half_text d : color_text d from_half (Plain LAB (Comps (Some 50) (Some 10) (Some 20) (default_alpha d (Some 0.5)))).
Proof.
  eapply TextRelative; [left; reflexivity|apply half_lab_text|]. apply HalvesOne; [reflexivity|]. eexists. split; [apply lab_self|].
  eapply (LabText d _ LAB 100 125); [left; reflexivity | apply CNumber; constructor; cbn; left; reflexivity | cbn; lra | apply CNumber; constructor; cbn; right; left; reflexivity
    | apply CNumber; constructor; cbn; right; right; left; reflexivity |]. apply AlphaOmitted.
Qed.
Lemma alpha_refuted : exists t c c', proper t /\ color_text css_dialect t c /\ parse_color t = Ok c' /\ c' <> c.
Proof.
  exists from_half. eexists. eexists. split; [cbn; tauto|]. split; [apply from_half_text|]. split; [apply parse_iff; [cbn; tauto|apply from_half_text]|].
  cbn. intros H. inversion H. lra.
Qed.
Definition plain_lch : token := Fn "lch" [Number 50; Number 20; Number 30].
Definition from_lch : token := Fn "lch" [Ident "from"; plain_lch; Ident "l"; Ident "c"; Calc (XAdd (XIdent "h") (XNumber 60)); Slash; Number 1].
Definition lch_of (h : R) : css := Plain LCH (Comps (Some 50) (Some 20) (Some h) (Some 1)).
Lemma plain_lch_text d : color_text d plain_lch (lch_of 30).
Proof.
  eapply TextAbsolute; [right; right; left; reflexivity|]. eapply (LchText d no_source LCH 100 150); [left; reflexivity | apply CNumber; constructor | cbn; lra | apply CNumber; constructor | cbn; lra | apply HNumber; constructor |].
  apply (AlphaOmitted d no_source).
Qed.
Lemma from_lch_text : color_text css_dialect from_lch (lch_of (30 + 60)).
Proof.
  eapply TextRelative; [right; right; left; reflexivity|apply plain_lch_text|]. apply HalvesOne; [reflexivity|]. eexists. split.
  - apply (SourceOfHue css_dialect LCH (lch_of 30) (Comps (Some 50) (Some 20) (Some 30) (Some 1)) (Comps (Some 50) (Some 20) (Some 30) (Some 1)) (Some 30)); [|reflexivity|reflexivity|].
    + exact (InSpacePlain LCH LCH _).
    + cbn. split; [apply same_angle_refl|lra].
  - eapply (LchText css_dialect _ LCH 100 150); [left; reflexivity | apply CNumber; constructor; cbn; left; reflexivity | cbn; lra | apply CNumber; constructor; cbn; right; left; reflexivity | cbn; lra | |].
    + apply HNumber. constructor. apply (MAdd css_dialect _ _ _ TNumber (Some 30) (Some 60)); [|constructor]. constructor. cbn. right; right; left. reflexivity.
    + eapply AlphaGiven; [apply CNumber; constructor|]. cbn. unfold Rmax, Rmin. destruct (Rle_dec 1 1); destruct (Rle_dec 0 _); lra.
Qed.
Lemma hue_refuted : exists t c, proper t /\ color_text css_dialect t c /\ parse_color t = Fail.
Proof. exists from_lch. eexists. split; [cbn; tauto|]. split; [apply from_lch_text|]. vm_compute. reflexivity. Qed.
Definition from_nested : token := Fn "lab" [Ident "from"; half_lab; Calc (XNested (XIdent "l")); Ident "a"; Ident "b"; Slash; Number 1].
Lemma nested_refuted : exists t c, proper t /\ color_text css_dialect t c /\ parse_color t = Fail.
Proof.
  exists from_nested, (lab_of 1). split; [cbn; tauto|]. split; [|vm_compute; reflexivity].
  eapply TextRelative; [left; reflexivity|apply half_lab_text|]. apply HalvesOne; [reflexivity|]. eexists. split; [apply lab_self|].
  eapply (LabText css_dialect _ LAB 100 125 _ _ _ _ (Some 50)); [left; reflexivity | | cbn; lra | apply CNumber; constructor; cbn; right; left; reflexivity
    | apply CNumber; constructor; cbn; right; right; left; reflexivity |].
  - apply CNumber. constructor. apply MDeep; [exact I|]. constructor. cbn. left. reflexivity.
  - eapply AlphaGiven; [apply CNumber; constructor|]. cbn. unfold Rmax, Rmin. destruct (Rle_dec 1 1); destruct (Rle_dec 0 _); lra.
Qed.
(** hsl(120, 50, 50) is read although CSS wants percentages there *)
Definition old_hsl : token := Fn "hsl" [Number 120; CommaToken; Number 50; CommaToken; Number 50].
Lemma old_refuted : exists t c, proper t /\ parse_color t = Ok c /\ forall c', ~ color_text css_dialect t c'.
Proof.
  exists old_hsl. eexists. split; [cbn; tauto|]. split.
  - apply parse_iff; [cbn; tauto|]. eapply TextAbsolute; [cbn; tauto|]. eapply (HslOld rd no_source _ _ _ [] 120 50 _ 50 _ (Some 1)); [reflexivity | apply HNumber; constructor | | | | | constructor | apply hue_color_iff; reflexivity].
    + right. split; [exact I|constructor].
    + apply clamped_iff; [lra|reflexivity].
    + right. split; [exact I|constructor].
    + apply clamped_iff; [lra|reflexivity].
  - intros c' H. inversion H; subst; try discriminate.
    match goal with B : body _ _ _ _ _ |- _ => inversion B; subst end;
      repeat match goal with
      | H : component _ _ _ CommaToken _ |- _ => inversion H; subst; clear H
      | H : value_of _ _ CommaToken _ _ |- _ => inversion H
      | H : value_of _ _ (Number _) TPercentage _ |- _ => inversion H
      | H : percent_only _ _ _ |- _ => destruct H as [[? [? ?]]|[[] _]]
      end.
    all: match goal with F : In ("hsl", RGB) _ |- _ => cbn in F; repeat (destruct F as [F|F]; [discriminate F|]); contradiction end.
Qed.
(** lab(calc(1% + 1) 0 0) *)
Definition crashing : token := Fn "lab" [Calc (XAdd (XPercentage 0.01) (XNumber 1)); Number 0; Number 0].
Lemma crash_refuted : exists t, proper t /\ parse_color t = Crash.
Proof. exists crashing. split; [cbn; tauto|]. vm_compute. reflexivity. Qed.
