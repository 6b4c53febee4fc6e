(** Proofs that printing a media query list and parsing it back preserves its meaning. *)
From Coq Require Import List String Ascii Bool ZArith QArith Lia.
From Verif Require Import MediaModel MediaSpec.
Import ListNotations.
Open Scope string_scope.
Open Scope list_scope.

(** ** Induction over conditions *)
Section CondInd.
  Variable P : cond -> Prop.
  Hypothesis HF : forall f, P (CFeature f).
  Hypothesis HN : forall c, P c -> P (CNot c).
  Hypothesis HO : forall op cs, Forall P cs -> P (COp op cs).
  Hypothesis HU : forall l, P (CUnknown l).
  Fixpoint cond_ind' (c : cond) : P c :=
    match c with
    | CFeature f => HF f
    | CNot d => HN d (cond_ind' d)
    | COp op cs =>
        HO op cs ((fix go (l : list cond) : Forall P l :=
                     match l with
                     | [] => Forall_nil P
                     | x :: r => Forall_cons x (cond_ind' x) (go r)
                     end) cs)
    | CUnknown l => HU l
    end.
End CondInd.

Fixpoint cond_size (c : cond) : nat :=
  match c with
  | CFeature _ => 1
  | CNot d => S (cond_size d)
  | COp _ cs => S (fold_right (fun c n => cond_size c + n)%nat O cs)
  | CUnknown _ => 1
  end.

Lemma cond_strong_ind : forall P : cond -> Prop,
    (forall c, (forall d, (cond_size d < cond_size c)%nat -> P d) -> P c) -> forall c, P c.
Proof.
  intros P H c. remember (cond_size c) as n eqn:E.
  revert c E. induction n as [n IH] using lt_wf_ind. intros c ->.
  apply H. intros d Hd. eapply IH; eauto.
Qed.

Lemma in_size : forall op cs c, In c cs -> (cond_size c < cond_size (COp op cs))%nat.
Proof.
  intros op cs c H. cbn [cond_size]. induction cs as [|x r IH]; [destruct H|].
  destruct H as [->|H]; cbn [fold_right]; [lia|]. specialize (IH H). lia.
Qed.

(** ** Strings *)
Lemma lower_ascii_idem : forall c, lower_ascii (lower_ascii c) = lower_ascii c.
Proof. intros [[] [] [] [] [] [] [] []]; reflexivity. Qed.

Lemma lower_idem : forall s, lower (lower s) = lower s.
Proof. induction s; cbn [lower]; [|rewrite lower_ascii_idem, IHs]; reflexivity. Qed.

Lemma lower_app : forall a b, lower (String.append a b) = String.append (lower a) (lower b).
Proof. induction a; intros; cbn [lower String.append]; [|rewrite IHa]; reflexivity. Qed.

Lemma lower_dash : forall c, lower_ascii c = "-"%char -> c = "-"%char.
Proof. intros [[] [] [] [] [] [] [] []]; intro H; try discriminate H; reflexivity. Qed.

Lemma istrip_lower : forall p s,
    strip_prefix p (lower s) =
    match istrip_prefix p s with Some r => Some (lower r) | None => None end.
Proof.
  induction p as [|a p IH]; intros s; [reflexivity|].
  destruct s as [|b s]; [reflexivity|]. cbn [lower strip_prefix istrip_prefix].
  destruct (Ascii.eqb a (lower_ascii b)); [apply IH|reflexivity].
Qed.

Lemma strip_dashes_lower : forall s,
    strip_prefix "--" s = None -> strip_prefix "--" (lower s) = None.
Proof.
  intros [|a s]; [reflexivity|]. cbn [lower strip_prefix].
  destruct (Ascii.eqb "-" a) eqn:Ea; [apply Ascii.eqb_eq in Ea; subst a|].
  - change (lower_ascii "-") with "-"%char. rewrite ?Ascii.eqb_refl.
    destruct s as [|b s]; [reflexivity|]. cbn [lower strip_prefix].
    destruct (Ascii.eqb "-" b) eqn:Eb; [cbn; intro H; discriminate H|].
    intros _. destruct (Ascii.eqb "-" (lower_ascii b)) eqn:E; [|reflexivity].
    apply Ascii.eqb_eq in E. symmetry in E. apply lower_dash in E. subst b.
    discriminate Eb.
  - intros _. destruct (Ascii.eqb "-" (lower_ascii a)) eqn:E; [|reflexivity].
    apply Ascii.eqb_eq in E. symmetry in E. apply lower_dash in E. subst a.
    discriminate Ea.
Qed.

Lemma strip_prefix_app : forall p s, strip_prefix p (String.append p s) = Some s.
Proof.
  induction p; intros; cbn [strip_prefix String.append]; [reflexivity|].
  rewrite Ascii.eqb_refl. apply IHp.
Qed.

Lemma istrip_prefix_app : forall p s, lower p = p -> istrip_prefix p (String.append p s) = Some s.
Proof.
  induction p as [|a p IH]; intros s Hp; cbn [istrip_prefix String.append]; [reflexivity|].
  cbn [lower] in Hp. injection Hp as Ha Hp. rewrite Ha, Ascii.eqb_refl. apply IH. exact Hp.
Qed.

(** ** Feature names *)
Lemma feature_id_name_lower : forall f, lower (feature_id_name f) = feature_id_name f.
Proof. destruct f; reflexivity. Qed.

Lemma parse_feature_id_lower : forall s, parse_feature_id (lower s) = parse_feature_id s.
Proof.
  intros s. unfold parse_feature_id.
  assert (H : forall l, find (fun f => ieq (feature_id_name f) (lower s)) l =
                        find (fun f => ieq (feature_id_name f) s) l).
  { induction l as [|f l IH]; [reflexivity|]. cbn [find]. unfold ieq at 1 3.
    rewrite lower_idem, IH. reflexivity. }
  apply H.
Qed.

Lemma parse_feature_id_name : forall f, parse_feature_id (feature_id_name f) = Some f.
Proof. destruct f; vm_compute; reflexivity. Qed.

Lemma parse_feature_id_some : forall s f,
    parse_feature_id s = Some f -> lower s = feature_id_name f.
Proof.
  intros s f H. apply find_some in H. destruct H as [_ H].
  apply String.eqb_eq in H. rewrite feature_id_name_lower in H. symmetry; exact H.
Qed.

Lemma parse_name_standard : forall f, parse_name (feature_id_name f) = (NStandard f, None).
Proof. destruct f; vm_compute; reflexivity. Qed.

Lemma parse_name_min : forall f,
    parse_name (print_name_with_prefix "min-" (NStandard f)) = (NStandard f, Some CGe).
Proof. destruct f; vm_compute; reflexivity. Qed.

Lemma parse_name_max : forall f,
    parse_name (print_name_with_prefix "max-" (NStandard f)) = (NStandard f, Some CLe).
Proof. destruct f; vm_compute; reflexivity. Qed.

(** Names the parser can produce. *)
Definition wf_name (n : feature_name) : Prop :=
  match n with
  | NStandard _ => True
  | NCustom s => exists r, strip_prefix "--" s = Some r
  | NUnknown s => parse_name s = (NUnknown s, None)
  end.

Lemma parse_name_print : forall n, wf_name n -> parse_name (print_name n) = (n, None).
Proof.
  intros [f|s|s] H; cbn [print_name] in *.
  - apply parse_name_standard.
  - destruct H as [r Hr]. unfold parse_name. rewrite Hr. reflexivity.
  - exact H.
Qed.

Lemma unknown_not_id : forall s, parse_name s = (NUnknown s, None) -> parse_feature_id s = None.
Proof.
  intros s H. destruct (parse_feature_id s) as [f|] eqn:E; [exfalso|reflexivity].
  pose proof (parse_feature_id_some _ _ E) as L.
  unfold parse_name in H.
  destruct (strip_prefix "--" s) eqn:Ed; [discriminate H|].
  pose proof (istrip_lower "-webkit-" s) as W. rewrite L in W.
  destruct (istrip_prefix "-webkit-" s) as [r|] eqn:Ew.
  - (* only -webkit-device-pixel-ratio starts with -webkit- *)
    assert (f = WebKitDevicePixelRatio /\ lower r = "device-pixel-ratio") as [-> Lr].
    { generalize dependent (lower r). intros lr W.
      destruct f; vm_compute in W; try discriminate W. injection W as W. subst lr. auto. }
    pose proof (istrip_lower "min-" r) as M1. pose proof (istrip_lower "max-" r) as M2.
    rewrite Lr in M1, M2.
    destruct (istrip_prefix "min-" r); [vm_compute in M1; discriminate M1|].
    destruct (istrip_prefix "max-" r); [vm_compute in M2; discriminate M2|].
    assert (Hp : parse_feature_id (String.append "-webkit-" r) = Some WebKitDevicePixelRatio).
    { rewrite <- parse_feature_id_lower, lower_app, Lr. vm_compute. reflexivity. }
    rewrite Hp in H. discriminate H.
  - pose proof (istrip_lower "min-" s) as M1. pose proof (istrip_lower "max-" s) as M2.
    rewrite L in M1, M2.
    assert (N1 : forall f, strip_prefix "min-" (feature_id_name f) = None) by (destruct f0; reflexivity).
    assert (N2 : forall f, strip_prefix "max-" (feature_id_name f) = None) by (destruct f0; reflexivity).
    rewrite N1 in M1. rewrite N2 in M2.
    destruct (istrip_prefix "min-" s); [discriminate M1|].
    destruct (istrip_prefix "max-" s); [discriminate M2|].
    cbv iota in H. rewrite E in H. discriminate H.
Qed.

Lemma custom_not_id : forall s r, strip_prefix "--" s = Some r -> parse_feature_id s = None.
Proof.
  intros s r H. destruct (parse_feature_id s) as [f|] eqn:E; [exfalso|reflexivity].
  apply parse_feature_id_some in E.
  destruct s as [|a [|b s]]; cbn [strip_prefix] in H; try discriminate H;
    destruct (Ascii.eqb "-" a) eqn:Ea; try discriminate H.
  destruct (Ascii.eqb "-" b) eqn:Eb; try discriminate H.
  apply Ascii.eqb_eq in Ea, Eb. subst a b. cbn [lower] in E.
  assert (N : forall f, strip_prefix "--" (feature_id_name f) = None) by (destruct f0; reflexivity).
  specialize (N f). rewrite <- E in N. discriminate N.
Qed.

(** A prefixed name that is not standard stays unknown. *)
Lemma parse_name_prefixed_unknown : forall p s n,
    (n = NCustom s \/ n = NUnknown s) -> wf_name n -> p = "min-" \/ p = "max-" ->
    parse_name (print_name_with_prefix p n) = (NUnknown (String.append p s), None).
Proof.
  intros p s n Hn Hw Hp.
  assert (Hid : parse_feature_id s = None).
  { destruct Hn as [->| ->]; cbn [wf_name] in Hw.
    - destruct Hw as [r Hr]. eapply custom_not_id; eauto.
    - apply unknown_not_id; exact Hw. }
  assert (Hpr : print_name_with_prefix p n = String.append p s)
    by (destruct Hn as [->| ->]; reflexivity).
  rewrite Hpr. unfold parse_name.
  destruct Hp as [->| ->].
  - assert (E1 : strip_prefix "--" (String.append "min-" s) = None) by reflexivity.
    assert (E2 : istrip_prefix "-webkit-" (String.append "min-" s) = None) by reflexivity.
    assert (E3 : istrip_prefix "min-" (String.append "min-" s) = Some s)
      by (apply istrip_prefix_app; reflexivity).
    rewrite E1, E2, E3, Hid. reflexivity.
  - assert (E1 : strip_prefix "--" (String.append "max-" s) = None) by reflexivity.
    assert (E2 : istrip_prefix "-webkit-" (String.append "max-" s) = None) by reflexivity.
    assert (E3 : istrip_prefix "min-" (String.append "max-" s) = None) by reflexivity.
    assert (E4 : istrip_prefix "max-" (String.append "max-" s) = Some s)
      by (apply istrip_prefix_app; reflexivity).
    rewrite E1, E2, E3, E4, Hid. reflexivity.
Qed.

(** ** Values *)
Definition wf_value (v : mvalue) : Prop :=
  match v with VLength _ u => is_length_unit u = true | _ => True end.

Definition no_slash (rest : list tok) : Prop :=
  match rest with TDelim c :: _ => c <> "/"%char | _ => True end.

Definition oq_eq (a b : option Q) : Prop :=
  match a, b with Some x, Some y => x == y | None, None => True | _, _ => False end.

(** Same denotation in every environment, same keyword. *)
Definition veq (v w : mvalue) : Prop :=
  (forall e, oq_eq (den e v) (den e w)) /\
  (forall s, v = VIdent s <-> w = VIdent s).

Lemma oq_eq_refl : forall a, oq_eq a a.
Proof. intros [q|]; cbn; [reflexivity|trivial]. Qed.

Lemma veq_refl : forall v, veq v v.
Proof. intros v; split; [intros; apply oq_eq_refl|tauto]. Qed.

Lemma length_unit_lower : forall u, is_length_unit u = true -> lower u = u.
Proof.
  intros u H. unfold is_length_unit in H. apply existsb_exists in H.
  destruct H as [x [Hin He]]. apply String.eqb_eq in He. subst x.
  assert (A : forallb (fun u => String.eqb (lower u) u) length_units = true)
    by (vm_compute; reflexivity).
  rewrite forallb_forall in A. apply String.eqb_eq. apply A. exact Hin.
Qed.

Lemma parse_ratio_no_slash : forall q i rest,
    no_slash rest -> parse_ratio (TNum q i :: rest) = Some (VRatio q 1, rest).
Proof.
  intros q i rest H. unfold parse_ratio. cbn [parse_number].
  destruct rest as [|[] rest]; try reflexivity.
  cbn in H. destruct c as [[] [] [] [] [] [] [] []]; try reflexivity.
  exfalso; apply H; reflexivity.
Qed.

Lemma parse_ratio_required_no_slash : forall q i rest,
    no_slash rest -> parse_ratio_required (TNum q i :: rest) = None.
Proof.
  intros q i rest H. unfold parse_ratio_required. cbn [parse_number].
  destruct rest as [|[] rest]; try reflexivity.
  cbn in H. destruct c as [[] [] [] [] [] [] [] []]; try reflexivity.
  exfalso; apply H; reflexivity.
Qed.

Lemma parse_unknown_num : forall q i rest,
    no_slash rest -> parse_unknown (TNum q i :: rest) = Some (VNumber q, rest).
Proof.
  intros. unfold parse_unknown. rewrite parse_ratio_required_no_slash by assumption. reflexivity.
Qed.

Lemma length_unit_not_res : forall u, is_length_unit u = true -> parse_res_unit u = None.
Proof.
  intros u H. unfold is_length_unit in H. apply existsb_exists in H.
  destruct H as [x [Hin He]]. apply String.eqb_eq in He. subst x.
  assert (A : forallb (fun u => match parse_res_unit u with None => true | _ => false end)
                length_units = true) by (vm_compute; reflexivity).
  rewrite forallb_forall in A. specialize (A u Hin).
  destruct (parse_res_unit u); [discriminate A|reflexivity].
Qed.

Lemma check_type_refl : forall v, check_type v (value_type v) = true.
Proof. destruct v; reflexivity. Qed.

Lemma check_unknown : forall v, check_type v FTUnknown = true.
Proof. destruct v; reflexivity. Qed.

Lemma check_type_cases : forall v t,
    check_type v t = true -> t = FTUnknown \/ (exists s, v = VEnv s) \/ t = value_type v.
Proof. intros v t H. destruct v, t; cbn in H; try discriminate H; eauto. Qed.

Lemma ratio_den_one : forall e a b, b == 1 -> oq_eq (den e (VRatio a 1)) (den e (VRatio a b)).
Proof.
  intros e a b H. cbn [den]. change (Qeq_bool 1 0) with false. cbn iota.
  destruct (Qeq_bool b 0) eqn:E.
  - apply Qeq_bool_iff in E. rewrite E in H. discriminate H.
  - cbn [oq_eq]. rewrite H. reflexivity.
Qed.

Lemma parse_print_value : forall x v t rest,
    wf_value v -> check_type v t = true -> no_slash rest ->
    exists v', parse_value (print_value x v ++ rest) t = Some (v', rest)
          /\ check_type v' t = true /\ wf_value v' /\ (t <> FTUnknown -> veq v' v).
Proof.
  intros x v t rest Hw Hc Hs.
  destruct (check_type_cases _ _ Hc) as [->|[[s ->]| ->]].
  - (* unknown type: some value is read *)
    assert (G : exists v', parse_value (print_value x v ++ rest) FTUnknown = Some (v', rest)
                      /\ wf_value v').
    { unfold parse_value. cbn [parse_known].
      destruct v; cbn [print_value].
      - unfold print_length. destruct (Qeq_bool q 0); cbn [app].
        + rewrite parse_unknown_num by assumption. eexists; split; [reflexivity|exact I].
        + unfold parse_unknown. cbn [parse_ratio_required parse_number parse_length].
          cbn [wf_value] in Hw. rewrite (length_unit_lower _ Hw), Hw.
          eexists; split; [reflexivity|exact Hw].
      - cbn [app]. unfold num_tok. rewrite parse_unknown_num by assumption.
        eexists; split; [reflexivity|exact I].
      - cbn [app]. rewrite parse_unknown_num by assumption.
        eexists; split; [reflexivity|exact I].
      - cbn [app]. rewrite parse_unknown_num by assumption.
        eexists; split; [reflexivity|exact I].
      - destruct u, x; cbn; eexists; (split; [reflexivity|exact I]).
      - unfold num_tok. destruct (Qeq_bool b 1); cbn [app].
        + rewrite parse_unknown_num by assumption. eexists; split; [reflexivity|exact I].
        + eexists; split; [reflexivity|exact I].
      - cbn. eexists; split; [reflexivity|exact I].
      - cbn. eexists; split; [reflexivity|exact I]. }
    destruct G as [v' [G1 G2]]. exists v'. repeat split; try assumption.
    + apply check_unknown.
    + intros e. exfalso; apply H; reflexivity.
    + intros E; exfalso; apply H; reflexivity.
    + intros E; exfalso; apply H; reflexivity.
  - (* env() *)
    exists (VEnv s). split; [|repeat split; auto using oq_eq_refl].
    destruct t; reflexivity.
  - unfold parse_value.
    destruct v; cbn [value_type print_value].
    + cbn [parse_known]. unfold print_length. destruct (Qeq_bool q 0) eqn:E; cbn [app parse_length].
      * eexists; split; [reflexivity|]. split; [reflexivity|]. split; [vm_compute; reflexivity|].
        intros _. split.
        -- intros e. cbn [den oq_eq]. apply Qeq_bool_iff in E. rewrite E. ring.
        -- intros s; split; discriminate.
      * cbn [wf_value] in Hw. rewrite (length_unit_lower _ Hw), Hw.
        eexists; split; [reflexivity|]. split; [reflexivity|]. split; [exact Hw|].
        intros _; apply veq_refl.
    + eexists; split; [reflexivity|]. repeat split; intros; auto using oq_eq_refl.
    + eexists; split; [reflexivity|]. repeat split; intros; auto using oq_eq_refl.
    + destruct b; (eexists; split; [reflexivity|]; repeat split; intros; auto using oq_eq_refl).
    + destruct u, x; (eexists; split; [reflexivity|]; repeat split; intros; auto using oq_eq_refl).
    + unfold num_tok. cbn [parse_known].
      destruct (Qeq_bool b 1) eqn:E; cbn [app].
      * rewrite parse_ratio_no_slash by assumption.
        eexists; split; [reflexivity|]. split; [reflexivity|]. split; [exact I|].
        intros _. split.
        -- intros e. apply ratio_den_one. apply Qeq_bool_iff. exact E.
        -- intros s; split; discriminate.
      * eexists; split; [reflexivity|]. repeat split; intros; auto using oq_eq_refl.
    + eexists; split; [reflexivity|]. repeat split; intros; auto using oq_eq_refl.
    + (* VEnv with unknown type *)
      eexists; split; [reflexivity|]. repeat split; intros; auto using oq_eq_refl.
Qed.

Lemma print_value_head : forall x v rest,
    exists t l, print_value x v ++ rest = t :: l /\
           (forall c, t <> TDelim c) /\ t <> TColon /\ (forall b, t <> TBlock b) /\
           (forall s, t = TIdent s <-> v = VIdent s).
Proof.
  intros x v rest.
  destruct v; cbn [print_value]; unfold print_length, print_resolution, num_tok;
    try destruct (Qeq_bool q 0); try destruct u;
    (do 2 eexists; split; [reflexivity|]); repeat split; try discriminate; intros; try congruence.
Qed.

Lemma consume_print_cmp : forall op rest colon,
    (forall r, rest <> TDelim "=" :: r) ->
    consume_op (print_cmp op ++ rest) colon = Some (Some op, rest).
Proof.
  intros op rest colon H. destruct op; try reflexivity;
    cbn; (destruct rest as [|[] rest]; try reflexivity);
    destruct c as [[] [] [] [] [] [] [] []]; try reflexivity;
    exfalso; eapply H; reflexivity.
Qed.

Lemma print_value_not_eq : forall x v rest r, print_value x v ++ rest <> TDelim "=" :: r.
Proof.
  intros x v rest r H. destruct (print_value_head x v rest) as [t [l [E [Ht _]]]].
  rewrite E in H. injection H as H _. eapply Ht; eauto.
Qed.

(** ** Features *)

(** Features the parser can produce. *)
Definition wf_feature (f : feature) : Prop :=
  match f with
  | FPlain n v => wf_name n /\ wf_value v /\ check_type v (name_type n) = true
  | FBoolean n => wf_name n
  | FRange n _ v =>
      wf_name n /\ wf_value v /\ check_type v (name_type n) = true
      /\ allows_ranges (name_type n) = true
  | FInterval n s sop e eop =>
      wf_name n /\ wf_value s /\ wf_value e
      /\ check_type s (name_type n) = true /\ check_type e (name_type n) = true
      /\ allows_ranges (name_type n) = true /\ matching_ops sop eop = true
      /\ (forall i, s <> VIdent i)
  end.

Lemma holds_proper : forall op x y y', y == y' -> holds op x y = holds op x y'.
Proof.
  intros op x y y' H. destruct op; cbn [holds]; rewrite H; reflexivity.
Qed.
Lemma holds_proper_l : forall op x y y', y == y' -> holds op y x = holds op y' x.
Proof.
  intros op x y y' H. destruct op; cbn [holds]; rewrite H; reflexivity.
Qed.

Lemma compare_feature_veq : forall e f op v v',
    veq v v' -> compare_feature e f op v = compare_feature e f op v'.
Proof.
  intros e f op v v' [H _]. specialize (H e). unfold compare_feature.
  destruct (e_num e f); [|reflexivity].
  destruct (den e v), (den e v'); cbn in H; try contradiction; [|reflexivity].
  rewrite (holds_proper _ _ _ _ H). reflexivity.
Qed.

Lemma compare_value_veq : forall e f op v v',
    veq v v' -> compare_value e v op f = compare_value e v' op f.
Proof.
  intros e f op v v' [H _]. specialize (H e). unfold compare_value.
  destruct (e_num e f); [|reflexivity].
  destruct (den e v), (den e v'); cbn in H; try contradiction; [|reflexivity].
  rewrite (holds_proper_l _ _ _ _ H). reflexivity.
Qed.

Lemma eval_plain_veq : forall e f v v', veq v v' -> eval_plain e f v = eval_plain e f v'.
Proof.
  intros e f v v' H. pose proof H as [_ Hi].
  destruct v; try (assert (E : forall s, v' <> VIdent s)
                    by (intros s0 E0; apply Hi in E0; discriminate E0);
                   unfold eval_plain; destruct v'; try (apply compare_feature_veq; exact H);
                   exfalso; eapply E; reflexivity).
  assert (E : v' = VIdent s) by (apply Hi; reflexivity). subst v'. reflexivity.
Qed.

Lemma compare_value_opposite : forall e v op f,
    compare_value e v op f = compare_feature e f (cmp_opposite op) v.
Proof.
  intros. unfold compare_value, compare_feature.
  destruct (e_num e f) as [x|], (den e v) as [y|]; try reflexivity.
  f_equal. destruct op; cbn [cmp_opposite holds]; try reflexivity.
  destruct (Qeq_bool y x) eqn:E; symmetry.
  - apply Qeq_bool_iff. apply Qeq_bool_iff in E. symmetry; exact E.
  - destruct (Qeq_bool x y) eqn:E'; [|reflexivity].
    apply Qeq_bool_iff in E'. symmetry in E'. apply Qeq_bool_iff in E'. congruence.
Qed.

Definition feature_sem_eq (f g : feature) : Prop := forall e, eval_feature e f = eval_feature e g.

Lemma std_not_unknown : forall f, name_type (NStandard f) <> FTUnknown.
Proof. destruct f; discriminate. Qed.

(** Printing a boolean feature. *)
Lemma parse_boolean_body : forall n,
    wf_name n -> parse_feature [TIdent (print_name n)] = FOk (FBoolean n) [].
Proof.
  intros n H. unfold parse_feature, parse_name_first. rewrite (parse_name_print _ H). reflexivity.
Qed.

Lemma parse_plain_body : forall x n v,
    wf_feature (FPlain n v) ->
    exists g, parse_feature (TIdent (print_name n) :: TColon :: print_value x v) = FOk g []
         /\ feature_sem_eq g (FPlain n v).
Proof.
  intros x n v [Hn [Hv Hc]]. unfold parse_feature, parse_name_first.
  rewrite (parse_name_print _ Hn). cbn [consume_op].
  destruct (parse_print_value x v (name_type n) [] Hv Hc I) as [v' [E [C [_ S]]]].
  rewrite app_nil_r in E. rewrite E, C. eexists; split; [reflexivity|].
  intros e. destruct n as [f| |]; try reflexivity. cbn [eval_feature].
  apply eval_plain_veq. apply S. apply std_not_unknown.
Qed.

Lemma parse_range_body : forall x n op v,
    wf_feature (FRange n op v) ->
    exists g, parse_feature (TIdent (print_name n) :: print_cmp op ++ print_value x v) = FOk g []
         /\ feature_sem_eq g (FRange n op v).
Proof.
  intros x n op v [Hn [Hv [Hc Hr]]]. unfold parse_feature, parse_name_first.
  rewrite (parse_name_print _ Hn).
  rewrite consume_print_cmp
    by (intros r; rewrite <- (app_nil_r (print_value x v)); apply print_value_not_eq).
  destruct (parse_print_value x v (name_type n) [] Hv Hc I) as [v' [E [C [_ S]]]].
  rewrite app_nil_r in E. rewrite E, C, Hr. eexists; split; [reflexivity|].
  intros e. destruct n as [f| |]; try reflexivity. cbn [eval_feature].
  apply compare_feature_veq. apply S. apply std_not_unknown.
Qed.

(** A lowered range: [min-name: value] means [name >= value]. *)
Lemma parse_min_body : forall x n v op p,
    (op = CGe /\ p = "min-" \/ op = CLe /\ p = "max-") ->
    wf_feature (FRange n op v) ->
    exists g, parse_feature (TIdent (print_name_with_prefix p n) :: TColon :: print_value x v)
         = FOk g [] /\ feature_sem_eq g (FRange n op v).
Proof.
  intros x n v op p Hop [Hn [Hv [Hc Hr]]]. unfold parse_feature, parse_name_first.
  destruct n as [f|s|s].
  - assert (P : parse_name (print_name_with_prefix p (NStandard f)) = (NStandard f, Some op)).
    { destruct Hop as [[-> ->]|[-> ->]]; [apply parse_name_min|apply parse_name_max]. }
    rewrite P. cbn [consume_op].
    destruct (parse_print_value x v _ [] Hv Hc I) as [v' [E [C [_ S]]]].
    rewrite app_nil_r in E. rewrite E, C, Hr. eexists; split; [reflexivity|].
    intros e. cbn [eval_feature]. apply compare_feature_veq. apply S. apply std_not_unknown.
  - rewrite (parse_name_prefixed_unknown p s (NCustom s)) by (tauto || assumption).
    cbn [consume_op name_type].
    destruct (parse_print_value x v FTUnknown [] Hv (check_unknown v) I) as [v' [E [C _]]].
    rewrite app_nil_r in E. rewrite E, C. eexists; split; [reflexivity|]. intros e; reflexivity.
  - rewrite (parse_name_prefixed_unknown p s (NUnknown s)) by (tauto || assumption).
    cbn [consume_op name_type].
    destruct (parse_print_value x v FTUnknown [] Hv (check_unknown v) I) as [v' [E [C _]]].
    rewrite app_nil_r in E. rewrite E, C. eexists; split; [reflexivity|]. intros e; reflexivity.
Qed.

(** An equality range is lowered to a plain feature. *)
Lemma parse_eq_body : forall x n v,
    wf_feature (FRange n CEq v) ->
    exists g, parse_feature (TIdent (print_name n) :: TColon :: print_value x v)
         = FOk g [] /\ feature_sem_eq g (FRange n CEq v).
Proof.
  intros x n v [Hn [Hv [Hc Hr]]].
  destruct (parse_plain_body x n v) as [g [E S]]; [repeat split; assumption|].
  exists g; split; [exact E|]. intros e. rewrite S.
  destruct n as [f| |]; try reflexivity. cbn [eval_feature name_type] in *.
  destruct v; try reflexivity.
  (* a keyword value is not of a range type *)
  pose proof (std_not_unknown f) as Hu. cbn [name_type] in Hu.
  destruct (feature_id_type f); cbn in Hc, Hr; try discriminate; congruence.
Qed.

Lemma find_name_skip : forall x v op n rest,
    (forall i, v <> VIdent i) ->
    find_name (print_value x v ++ print_cmp op ++ TIdent n :: rest) = Some (parse_name n).
Proof.
  intros x v op n rest H.
  destruct v; cbn [print_value]; unfold print_length, print_resolution, num_tok;
    try destruct (Qeq_bool q 0); try destruct u; try destruct (Qeq_bool b 1);
    try (exfalso; eapply H; reflexivity); destruct op; reflexivity.
Qed.

Lemma cmp_no_slash : forall op l, no_slash (print_cmp op ++ l).
Proof. intros [] l; cbn; discriminate. Qed.

Lemma parse_interval_body : forall x n s sop v eop,
    wf_feature (FInterval n s sop v eop) ->
    exists g, parse_feature (print_value x s ++ print_cmp sop ++ TIdent (print_name n)
                        :: print_cmp eop ++ print_value x v) = FOk g []
         /\ feature_sem_eq g (FInterval n s sop v eop).
Proof.
  intros x n s sop v eop [Hn [Hs [Hv [Cs [Cv [Hr [Hm Hi]]]]]]].
  set (tl := TIdent (print_name n) :: print_cmp eop ++ print_value x v).
  assert (N1 : parse_name_first (print_value x s ++ print_cmp sop ++ tl) = ErrOther).
  { destruct (print_value_head x s (print_cmp sop ++ tl)) as [t [l [E [_ [_ [_ I1]]]]]].
    rewrite E. destruct t; try reflexivity. exfalso. apply (Hi s0). apply I1. reflexivity. }
  unfold parse_feature. rewrite N1. unfold parse_value_first, tl.
  rewrite find_name_skip by exact Hi. rewrite (parse_name_print _ Hn).
  destruct (parse_print_value x s (name_type n) (print_cmp sop ++ tl) Hs Cs)
    as [s' [E [C [_ S]]]]; [apply cmp_no_slash|].
  cbv zeta. unfold tl in E. rewrite E.
  rewrite consume_print_cmp by (intros r; discriminate).
  rewrite Hr, C. cbn [negb orb].
  rewrite consume_print_cmp
    by (intros r; rewrite <- (app_nil_r (print_value x v)); apply print_value_not_eq).
  rewrite Hm.
  destruct (parse_print_value x v (name_type n) [] Hv Cv I) as [v' [E' [C' [_ S']]]].
  rewrite app_nil_r in E'. rewrite E', C'. eexists; split; [reflexivity|].
  intros e. destruct n as [f| |]; try reflexivity. cbn [eval_feature].
  rewrite (compare_value_veq e f sop s' s) by (apply S, std_not_unknown).
  rewrite (compare_feature_veq e f eop v' v) by (apply S', std_not_unknown).
  reflexivity.
Qed.
