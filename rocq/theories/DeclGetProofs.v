(** * Declaration blocks: [get] of shorthands *)
From Coq Require Import List Bool String PeanoNat Lia.
From Verif Require Import VendorPrefixModel ShorthandTable DeclModel DeclSpec DeclProofs DeclSetProofs.
Import ListNotations.
Local Open Scope string_scope.
Local Open Scope list_scope.

Definition valued (d : property) (l : pid) : option value :=
  match say d l with Some (Value v) => Some v | _ => None end.

Lemma set_opt_nth : forall k v vs j, k < List.length vs -> nth_error (set_opt k v vs) j = if Nat.eqb j k then Some (Some v) else nth_error vs j.
Proof.
  induction k as [|k IH]; intros v [|x vs] j L; cbn in L; try lia; destruct j as [|j]; cbn; auto. apply IH. lia.
Qed.
Lemma set_opt_length : forall k v vs, List.length (set_opt k v vs) = List.length vs.
Proof. induction k as [|k IH]; intros v [|x vs]; cbn; auto. Qed.

Lemma flat_of_some : forall i ls k0 k l, flat_of i ls k0 = Some (k, l) -> k0 <= k /\ nth_error ls (k - k0) = Some l /\ lh_is l i = true.
Proof.
  induction ls as [|x r IH]; cbn [flat_of]; intros k0 k l H; [discriminate|]. destruct (lh_is x i) eqn:E.
  - injection H as <- <-. rewrite Nat.sub_diag. auto.
  - apply IH in H as (A & B & C). split; [lia|]. replace (k - k0) with (S (k - S k0)) by lia. auto.
Qed.
Lemma flat_of_none : forall i ls k0, flat_of i ls k0 = None -> forall l, In l ls -> lh_is l i = false.
Proof.
  induction ls as [|x r IH]; cbn [flat_of]; intros k0 H l L; [destruct L|]. destruct (lh_is x i) eqn:E; [discriminate|].
  destruct L as [<- |L]; eauto.
Qed.
Lemma nodup_nth : forall (ls : list lh) j k x y, NoDup (map lh_name ls) -> nth_error ls j = Some x -> nth_error ls k = Some y ->
    lh_name x = lh_name y -> j = k.
Proof.
  intros ls j k x y N A B E. apply (proj1 (NoDup_nth_error (map lh_name ls)) N).
  - rewrite map_length. apply nth_error_Some. rewrite A. discriminate.
  - rewrite !nth_error_map, A, B. cbn. congruence.
Qed.
Lemma longhand_id_name : forall x p, pid_name (longhand_id x p) = lh_name x.
Proof. intros x p. unfold longhand_id. destruct (lh_vp x); reflexivity. Qed.
Lemma longhand_id_not_all : forall x p, longhand_id x p <> PAll.
Proof. intros x p. unfold longhand_id. destruct (lh_vp x); discriminate. Qed.

(** [spread] gives every longhand the value of its field. *)
Lemma spread_nth : forall keys vs j x, List.length vs = List.length keys -> nth_error (List.concat keys) j = Some x ->
    exists k g, nth_error keys k = Some g /\ In x g /\ nth_error (spread keys vs) j = Some (nth k vs []).
Proof.
  induction keys as [|g r IH]; intros vs j x L H; [destruct j; discriminate|].
  destruct vs as [|v vs]; [discriminate|]. cbn in L. cbn [List.concat spread] in *.
  destruct (Nat.lt_ge_cases j (List.length g)) as [C|C].
  - rewrite nth_error_app1 in H by lia. exists 0, g. split; [reflexivity|]. split; [eapply nth_error_In; eauto|].
    rewrite nth_error_app1 by (rewrite map_length; lia). rewrite nth_error_map, H. reflexivity.
  - rewrite nth_error_app2 in H by lia. destruct (IH vs (j - List.length g) x ltac:(lia) H) as (k & g' & A & B & D).
    exists (S k), g'. split; [exact A|]. split; [exact B|]. rewrite nth_error_app2 by (rewrite map_length; lia).
    rewrite map_length. exact D.
Qed.
Lemma spread_length : forall keys vs, List.length vs = List.length keys -> List.length (spread keys vs) = List.length (List.concat keys).
Proof.
  induction keys as [|g r IH]; intros [|v vs] L; cbn in *; try discriminate; auto.
  rewrite !app_length, map_length, IH; auto.
Qed.

Lemma names_name : forall i s, names i s -> sh_name s = pid_name i.
Proof. intros [n p|n| |n] s N; cbn in *; try tauto; destruct N; auto. Qed.

Lemma concat_head : forall keys : list (list lh), (forall g, In g keys -> g <> []) -> keys <> [] -> exists x, nth_error (List.concat keys) 0 = Some x.
Proof.
  intros [|g r] NE NK; [congruence|]. destruct g as [|x g]; [destruct (NE []); [left; reflexivity|reflexivity]|]. exists x. reflexivity.
Qed.

Section Sh.
Variables (s : sh) (i : pid).
Hypotheses (IN : In s shorthand_table) (NM : names i s).
Let ls := List.concat (sh_keys s).
Let P := prefix_of i.
Hypothesis REG : forall x, In x ls -> regular (longhand_id x P).

Lemma nodup_ls : NoDup (map lh_name ls).
Proof. exact (proj1 (table_ok_at s IN)). Qed.

Lemma spread_valued : forall vs j x, List.length vs = List.length (sh_keys s) -> nth_error ls j = Some x ->
    exists v, nth_error (spread (sh_keys s) vs) j = Some v /\ valued (PShort i vs) (longhand_id x P) = Some v.
Proof.
  intros vs j x L H. destruct (spread_nth (sh_keys s) vs j x L H) as (k & g & K & X & E).
  exists (nth k vs []). split; [exact E|]. unfold valued. cbn [say]. unfold P. rewrite (say_short_at _ i s k g x IN NM K X). reflexivity.
Qed.

(** One declaration changes the variables of the longhands it gives a value to. *)
Definition effect (d : property) (imp : bool) (st st' : fl) : Prop :=
  List.length (f_vals st') = List.length (f_vals st) /\
  (forall j x, nth_error ls j = Some x ->
     nth_error (f_vals st') j = match valued d (longhand_id x P) with Some v => Some (Some v) | None => nth_error (f_vals st) j end) /\
  exists n, f_count st' = f_count st + n /\ f_important st' = f_important st + (if imp then n else 0) /\
            (n = 0 <-> forall x, In x ls -> valued d (longhand_id x P) = None).

Lemma effect_none : forall d imp st, (forall x, In x ls -> valued d (longhand_id x P) = None) -> effect d imp st st.
Proof.
  intros d imp st H. split; [reflexivity|]. split.
  - intros j x J. rewrite H; auto. eapply nth_error_In; eauto.
  - exists 0. split; [lia|]. split; [destruct imp; lia|]. tauto.
Qed.

Lemma take_effect : forall d imp rest done st len st' n, ls = done ++ rest -> List.length (f_vals st) = List.length ls ->
    (forall x, In x ls -> longhand d (longhand_id x P) = match valued d (longhand_id x P) with Some v => Some (PLong (longhand_id x P) v) | None => None end) ->
    take_longhands d imp P rest (List.length done) st len = (st', n) ->
    List.length (f_vals st') = List.length (f_vals st) /\
    (forall j x, nth_error ls j = Some x -> nth_error (f_vals st') j =
       if Nat.ltb j (List.length done) then nth_error (f_vals st) j
       else match valued d (longhand_id x P) with Some v => Some (Some v) | None => nth_error (f_vals st) j end) /\
    exists m, f_count st' = f_count st + m /\ f_important st' = f_important st + (if imp then m else 0) /\
            (m = 0 <-> forall x, In x rest -> valued d (longhand_id x P) = None).
Proof.
  intros d imp rest. induction rest as [|l r IH]; intros done st len st' n E L LH H; cbn [take_longhands] in H.
  - injection H as <- <-. split; [reflexivity|]. split.
    + intros j x J. assert (j < List.length done).
      { rewrite app_nil_r in E. rewrite <- E. apply nth_error_Some. rewrite J. discriminate. }
      apply Nat.ltb_lt in H. rewrite H. reflexivity.
    + exists 0. split; [lia|]. split; [destruct imp; lia|]. split; auto. intros _ x [].
  - change (lh_id l P) with (longhand_id l P) in H.
    rewrite (LH l) in H by (rewrite E; apply in_or_app; right; left; reflexivity).
    assert (E' : ls = (done ++ [l]) ++ r) by (rewrite <- app_assoc; exact E).
    assert (LD : List.length (done ++ [l]) = S (List.length done)) by (rewrite app_length; cbn; lia).
    assert (AT : nth_error ls (List.length done) = Some l).
    { rewrite E, nth_error_app2, Nat.sub_diag by lia. reflexivity. }
    assert (LT : List.length done < List.length ls) by (apply nth_error_Some; rewrite AT; discriminate).
    destruct (valued d (longhand_id l P)) as [v|] eqn:V.
    + rewrite <- LD in H. apply IH in H; auto; [|cbn; rewrite set_opt_length; exact L].
      destruct H as (A & B & m & C & D & F). cbn in A, C, D. rewrite set_opt_length in A. split; [exact A|]. split.
      * intros j x J. rewrite (B j x J). cbn [bump put f_vals]. rewrite set_opt_nth by lia. rewrite LD.
        destruct (Nat.eqb j (List.length done)) eqn:Q.
        -- apply Nat.eqb_eq in Q. subst j. rewrite AT in J. injection J as <-. rewrite V.
           rewrite (proj2 (Nat.ltb_lt _ _)) by lia. rewrite (proj2 (Nat.ltb_ge _ _)) by lia. reflexivity.
        -- apply Nat.eqb_neq in Q. destruct (Nat.ltb j (S (List.length done))) eqn:W.
           ++ apply Nat.ltb_lt in W. rewrite (proj2 (Nat.ltb_lt _ _)) by lia. reflexivity.
           ++ apply Nat.ltb_ge in W. rewrite (proj2 (Nat.ltb_ge _ _)) by lia. reflexivity.
      * exists (S m). split; [lia|]. split; [destruct imp; lia|]. split; [discriminate|].
        intros Z. rewrite (Z l (or_introl eq_refl)) in V. discriminate.
    + rewrite <- LD in H. apply IH in H; auto. destruct H as (A & B & m & C & D & F). split; [exact A|]. split.
      * intros j x J. rewrite (B j x J). rewrite LD.
        destruct (Nat.ltb j (S (List.length done))) eqn:W.
        -- apply Nat.ltb_lt in W. destruct (Nat.ltb j (List.length done)) eqn:W2; auto. apply Nat.ltb_ge in W2.
           assert (j = List.length done) by lia. subst j. rewrite AT in J. injection J as <-. rewrite V. reflexivity.
        -- apply Nat.ltb_ge in W. rewrite (proj2 (Nat.ltb_ge _ _)) by lia. reflexivity.
      * exists m. split; [exact C|]. split; [exact D|]. rewrite F. split; intros Z x; [intros [<- |X]; auto|intros X; apply Z; right; exact X].
Qed.

Lemma names_same : forall j, names j s -> (sh_vp s = true -> pid_prefix j = P) -> j = i.
Proof.
  intros j N Q. destruct j as [n p|n| |n], i as [m q|m| |m]; cbn in *; try tauto; destruct N as [A B], NM as [C D]; try congruence.
  unfold P in Q. cbn in Q. rewrite (Q A). congruence.
Qed.
Lemma sh_is_names : forall j, sh_is s j = true <-> names j s.
Proof.
  intros [n p|n| |n]; cbn [sh_is names]; rewrite ?andb_true_iff, ?negb_true_iff, ?String.eqb_eq; try tauto; split; try discriminate; tauto.
Qed.

Lemma bg_others : forall t x y, In t shorthand_table -> t <> bg -> t <> bgpos -> In x (List.concat (sh_keys t)) ->
    In y (List.concat (sh_keys bg)) -> lh_name x <> lh_name y.
Proof.
  assert (F : forallb (fun t => (negb (sh_vp t) && String.eqb (sh_name t) "background") || (negb (sh_vp t) && String.eqb (sh_name t) "background-position") ||
     forallb (fun x => forallb (fun y => negb (String.eqb (lh_name x) (lh_name y))) (List.concat (sh_keys bg))) (List.concat (sh_keys t))) shorthand_table = true)
    by (vm_compute; reflexivity).
  intros t x y T N1 N2 X Y E. rewrite forallb_forall in F. specialize (F t T).
  apply orb_true_iff in F as [F|F]; [apply orb_true_iff in F as [F|F]|].
  - apply andb_true_iff in F as [A B]. apply negb_true_iff in A. apply String.eqb_eq in B. apply N1.
    apply (names_unique (PPlain "background")); auto; [exact bg_in|split; auto|split; reflexivity].
  - apply andb_true_iff in F as [A B]. apply negb_true_iff in A. apply String.eqb_eq in B. apply N2.
    apply (names_unique (PPlain "background-position")); auto; [exact bgpos_in|split; auto|split; reflexivity].
  - rewrite forallb_forall in F. specialize (F x X). rewrite forallb_forall in F. specialize (F y Y).
    apply negb_true_iff, String.eqb_neq in F. contradiction.
Qed.

Lemma step_effect : forall d imp st st' n ck, typed d -> List.length (f_vals st) = List.length ls ->
    fl_step s P st (d, imp) = Some (st', n, ck) -> effect d imp st st'.
Proof.
  intros d imp st st' n ck T L H. destruct d as [j v|j vs|j v]; cbn [fl_step] in H; fold ls in H.
  - destruct (flat_of j ls 0) as [[k l]|] eqn:F.
    + destruct (flat_of_some _ _ _ _ _ F) as (_ & K & I). rewrite Nat.sub_0_r in K.
      destruct (lh_vp l && negb (vs_eqb (pid_prefix j) P)) eqn:C; [discriminate|]. injection H as <- <- <-.
      assert (J : j = longhand_id l P).
      { pose proof (lh_is_id _ _ I) as E. apply lh_is_iff in I as [_ V]. destruct j as [m p|m| |m]; try tauto; cbn in E.
        - rewrite V in C. cbn [andb pid_prefix] in C. apply negb_false_iff, vs_eqb_iff in C. subst p. symmetry. exact E.
        - rewrite <- E. unfold longhand_id. rewrite V. reflexivity. }
      assert (VL : forall x, valued (PLong j v) (longhand_id x P) = if String.eqb (lh_name l) (lh_name x) && Bool.eqb (lh_vp l) (lh_vp x) then Some v else None).
      { intros x. unfold valued. cbn [say]. rewrite J.
        assert (A : pid_eqb (longhand_id l P) PAll = false) by (apply pid_eqb_neq, longhand_id_not_all). rewrite A. cbn [andb].
        unfold longhand_id. destruct (lh_vp l), (lh_vp x); cbn [pid_eqb Bool.eqb]; rewrite ?vs_eqb_refl, ?andb_true_r, ?andb_false_r; auto;
          destruct (String.eqb (lh_name l) (lh_name x)); reflexivity. }
      split; [cbn; apply set_opt_length|]. split.
      * intros j' x X. cbn [bump put f_vals].
        assert (KL : k < List.length (f_vals st)) by (rewrite L; apply nth_error_Some; rewrite K; discriminate).
        rewrite set_opt_nth by exact KL. rewrite VL. destruct (Nat.eqb j' k) eqn:Q.
        -- apply Nat.eqb_eq in Q. subst j'. rewrite K in X. injection X as <-. rewrite String.eqb_refl, eqb_reflx. reflexivity.
        -- apply Nat.eqb_neq in Q. destruct (String.eqb (lh_name l) (lh_name x)) eqn:NE; auto. apply String.eqb_eq in NE.
           destruct Q. exact (nodup_nth ls j' k x l nodup_ls X K (eq_sym NE)).
      * exists 1. split; [reflexivity|]. split; [destruct imp; reflexivity|]. split; [discriminate|].
        intros Z. specialize (Z l (nth_error_In _ _ K)). rewrite VL, String.eqb_refl, eqb_reflx in Z. discriminate.
    + injection H as <- <- <-. apply effect_none. intros x X. unfold valued. cbn [say].
      destruct (pid_eqb j (longhand_id x P)) eqn:E.
      * apply pid_eqb_iff in E. subst j. pose proof (flat_of_none _ _ _ F x X) as Z. rewrite lh_is_own in Z. discriminate.
      * destruct (pid_eqb j PAll && _); reflexivity.
  - destruct (sh_is s j) eqn:SI.
    + apply sh_is_names in SI. destruct (sh_vp s && negb (vs_eqb (pid_prefix j) P)) eqn:C; [discriminate|].
      assert (j = i).
      { apply names_same; auto. intros V. rewrite V in C. cbn in C. apply negb_false_iff, vs_eqb_iff in C. exact C. }
      subst j. injection H as <- <- <-. pose proof (typed_short _ _ _ T IN NM) as LV.
      split; [cbn; rewrite map_length, spread_length by exact LV; symmetry; exact L|]. split.
      * intros j x X. cbn [bump f_vals]. destruct (spread_valued vs j x LV X) as (v & A & B). rewrite B, nth_error_map, A. reflexivity.
      * destruct (table_ok_at s IN) as (_ & _ & NE & NK & _).
        assert (HD : exists x, In x ls).
        { unfold ls. destruct (sh_keys s) as [|g r] eqn:K; [congruence|]. destruct g as [|x g]; [destruct (NE []); [left; reflexivity|reflexivity]|].
          exists x. left. reflexivity. }
        exists (match sh_kind s with KPlain => List.length ls | _ => 1 end). split; [reflexivity|].
        split; [cbn; destruct imp; reflexivity|]. split.
        -- intros Z. exfalso. destruct HD as [x X]. destruct (sh_kind s); try discriminate. destruct ls; [destruct X|discriminate].
        -- intros Z. exfalso. destruct HD as [x X]. apply In_nth_error in X as [j X].
           destruct (spread_valued vs j x LV X) as (v & A & B). rewrite (Z x (nth_error_In _ _ X)) in B. discriminate.
    + assert (TK : forall n', (let '(st'', n2) := take_longhands (PShort j vs) imp P ls 0 st 0 in Some (st'', n2, true)) = Some (st', n', ck) ->
                   effect (PShort j vs) imp st st').
      { clear H. intros n' H. destruct (take_longhands (PShort j vs) imp P ls 0 st 0) as [st'' n2] eqn:E. injection H as -> -> _.
        destruct (take_effect (PShort j vs) imp ls [] st 0 st' n' eq_refl L) as (A & B & C); auto.
        - intros x X. rewrite longhand_say by (apply REG; exact X). unfold valued. destruct (say (PShort j vs) (longhand_id x P)) as [[]|]; reflexivity.
        - split; [exact A|]. split; [intros j' x X; rewrite (B j' x X); reflexivity|exact C]. }
      destruct (sh_kind s) eqn:KD; [exact (TK _ H)|exact (TK _ H)|]. clear TK.
      pose proof (bg_only s IN KD) as SB.
      destruct T as [_ (t & TI & TN & TL & TK)].
      assert (TB : t <> s).
      { intros ->. apply sh_is_names in TN. congruence. }
      destruct (pid_dec j (PPlain "background-position")) as [-> |NJ].
      * rewrite (names_unique _ t bgpos TI bgpos_in TN ltac:(split; reflexivity)) in TL.
        destruct vs as [|vx [|vy [|]]]; cbn in TL; try discriminate. injection H as <- <- <-.
        assert (LS : ls = List.concat (sh_keys bg)) by (unfold ls; rewrite SB; reflexivity).
        assert (PP : P = vs_one Unprefixed).
        { unfold P. pose proof NM as NM'. rewrite SB in NM'. revert NM'. clear. intros NM'. destruct i as [m q|m| |m]; cbn in NM'; try tauto; try reflexivity. destruct NM'. discriminate. }
        assert (VL : forall k x, nth_error ls k = Some x -> valued (PShort (PPlain "background-position") [vx; vy]) (longhand_id x P) =
                 if Nat.eqb k 2 then Some vx else if Nat.eqb k 3 then Some vy else None).
        { rewrite LS, PP. intros k x X. do 9 (destruct k as [|k]; [injection X as <-; vm_compute; reflexivity|]).
          exfalso. vm_compute in X. destruct k; discriminate X. }
        split; [cbn [bump put f_vals]; rewrite !set_opt_length; reflexivity|]. split.
        -- intros k x X. rewrite (VL k x X). cbn [bump put f_vals].
           assert (L9 : List.length (f_vals st) = 9) by (rewrite L, LS; reflexivity).
           rewrite set_opt_nth by (rewrite set_opt_length; lia). rewrite set_opt_nth by lia.
           destruct (Nat.eqb k 3) eqn:K3; destruct (Nat.eqb k 2) eqn:K2; auto.
           apply Nat.eqb_eq in K2. apply Nat.eqb_eq in K3. congruence.
        -- exists 1. split; [reflexivity|]. split; [destruct imp; reflexivity|]. split; [discriminate|].
           intros Z. assert (A : nth_error ls 2 = Some (Lh "background-position-x" false)) by (rewrite LS; reflexivity).
           specialize (Z _ (nth_error_In _ _ A)). rewrite (VL 2 _ A) in Z. discriminate.
      * assert (st' = st).
        { clear -H NJ. destruct j as [m q|m| |m]; try (injection H as <- _ _; reflexivity).
          revert H. destruct (string_dec m "background-position") as [-> |NM]; [congruence|].
          intros H. repeat match type of H with match ?c with _ => _ end = _ => destruct c; try (injection H as <- _ _; reflexivity) end; congruence. }
        subst st'. apply effect_none. intros x X. unfold valued. cbn [say].
        destruct (say_short (fun k => Value (nth k vs [])) j (longhand_id x P)) as [y|] eqn:E; auto. exfalso.
        apply say_short_inv in E as (t' & k & g & z & TI' & TN' & K & Z & EQ & _).
        pose proof (names_unique j t t' TI TI' TN TN') as <-.
        assert (NMZ : lh_name z = lh_name x).
        { apply (f_equal pid_name) in EQ. rewrite !longhand_id_name in EQ. symmetry. exact EQ. }
        apply (bg_others t z x TI); auto.
        -- congruence.
        -- intros ->. apply NJ. destruct j as [m q|m| |m]; cbn in TN; try tauto; destruct TN as [A B]; [discriminate|]. rewrite <- B. reflexivity.
        -- apply in_concat. exists g. split; auto. eapply nth_error_In; eauto.
        -- rewrite <- SB. exact X.
  - injection H as <- <- <-. apply effect_none. intros x X. unfold valued. cbn [say].
    destruct (find_sh j) as [t|] eqn:F.
    + destruct (say_short (fun _ => Pending) j (longhand_id x P)) as [y|] eqn:E; auto.
      apply say_short_inv in E as (_ & _ & _ & _ & _ & _ & _ & _ & _ & ->). reflexivity.
    + destruct (pid_eqb j (longhand_id x P)); reflexivity.
Qed.

(** The last declaration that gives a value *)
Fixpoint last_valued (l : pid) (ds : list (property * bool)) : option value :=
  match ds with
  | [] => None
  | d :: r => match last_valued l r with Some v => Some v | None => valued (fst d) l end
  end.
Definition unvalued (m : bool) (ds : list (property * bool)) : Prop :=
  forall d x, In (d, m) ds -> In x ls -> valued d (longhand_id x P) = None.

Lemma check_same : forall n st st', check_length s n st = Some st' ->
    f_vals st' = f_vals st /\ f_count st' = f_count st /\ f_important st' = f_important st.
Proof.
  intros n st st' H. unfold check_length in H. destruct (sh_kind s); try destruct (f_length st) as [m|];
    try (injection H as <-; auto; fail); destruct (Nat.eqb m n); try discriminate; injection H as <-; auto.
Qed.
Lemma loop_effect : forall ds st st', (forall d m, In (d, m) ds -> typed d) -> List.length (f_vals st) = List.length ls ->
    fl_loop s P ds st = Some st' ->
    List.length (f_vals st') = List.length ls /\
    (forall j x, nth_error ls j = Some x ->
       nth_error (f_vals st') j = match last_valued (longhand_id x P) ds with Some v => Some (Some v) | None => nth_error (f_vals st) j end) /\
    exists a b, f_count st' = f_count st + a + b /\ f_important st' = f_important st + b /\
      (a = 0 <-> unvalued false ds) /\ (b = 0 <-> unvalued true ds).
Proof.
  induction ds as [|[d m] r IH]; intros st st' T L H.
  - cbn [fl_loop] in H. injection H as <-. split; [exact L|]. split; [reflexivity|]. exists 0, 0.
    split; [lia|]. split; [lia|]. split; split; auto; intros _ d x [].
  - cbn [fl_loop] in H. destruct (fl_step s P st (d, m)) as [[[st1 n] ck]|] eqn:S; [|discriminate].
    pose proof (step_effect d m st st1 n ck (T d m (or_introl eq_refl)) L S) as (A & B & n' & C & D & E).
    destruct (if ck then check_length s n st1 else Some st1) as [st2|] eqn:K; [|discriminate].
    assert (Q : f_vals st2 = f_vals st1 /\ f_count st2 = f_count st1 /\ f_important st2 = f_important st1).
    { destruct ck; [apply (check_same n); exact K|]. injection K as <-. auto. }
    destruct Q as (Q1 & Q2 & Q3).
    destruct (IH st2 st') as (A' & B' & a & b & C' & D' & E' & F'); auto.
    { intros e k I. apply (T e k). right. exact I. }
    { rewrite Q1, A. exact L. }
    split; [exact A'|]. split.
    + intros j x J. rewrite (B' j x J). cbn [last_valued fst]. destruct (last_valued (longhand_id x P) r); auto.
      rewrite Q1. apply B. exact J.
    + rewrite Q2, Q3, C, D in *.
      assert (U : forall k, unvalued k ((d, m) :: r) <-> (m = k -> n' = 0) /\ unvalued k r).
      { intros k. unfold unvalued. split.
        - intros Z. split; [intros ->; apply E; intros x X; apply (Z d x); [left; reflexivity|exact X]|].
          intros e x I X. apply (Z e x); [right; exact I|exact X].
        - intros [Z1 Z2] e x [I|I] X; [injection I as <- <-|apply (Z2 e x I X)].
          apply (proj1 E (Z1 eq_refl)). exact X. }
      exists ((if m then 0 else n') + a), ((if m then n' else 0) + b). split; [destruct m; lia|]. split; [destruct m; lia|].
      rewrite !U, <- E', <- F'. split; destruct m; split.
      * intros Z. split; [discriminate|lia].
      * intros [_ Z]. lia.
      * intros Z. split; [intros _; lia|lia].
      * intros [Z1 Z2]. specialize (Z1 eq_refl). lia.
      * intros Z. split; [intros _; lia|lia].
      * intros [Z1 Z2]. specialize (Z1 eq_refl). lia.
      * intros Z. split; [discriminate|lia].
      * intros [_ Z]. lia.
Qed.

Lemma all_some_map : forall l vs, all_some l = Some vs <-> l = map Some vs.
Proof.
  induction l as [|[v|] r IH]; intros vs; cbn [all_some].
  - split; [intros H; injection H as <-; reflexivity|destruct vs; [reflexivity|discriminate]].
  - destruct (all_some r) as [ws|] eqn:E; cbn [option_map].
    + split; [intros H; injection H as <-; cbn; f_equal; apply IH; reflexivity|].
      destruct vs as [|w vs]; cbn; [discriminate|]. intros H. injection H as -> H. apply IH in H. congruence.
    + split; [discriminate|]. destruct vs as [|w vs]; cbn; [discriminate|]. intros H. injection H as -> H. apply IH in H. discriminate.
  - split; [discriminate|]. destruct vs; discriminate.
Qed.
Lemma group_spread : forall keys vs r, (forall g, In g keys -> g <> []) -> List.length vs = List.length (List.concat keys) ->
    group_values keys vs = Some r -> vs = spread keys r /\ List.length r = List.length keys.
Proof.
  induction keys as [|g keys IH]; intros vs r NE L H; cbn [group_values] in H.
  - injection H as <-. destruct vs; [|discriminate]. auto.
  - destruct (firstn (List.length g) vs) as [|v w] eqn:F; [discriminate|].
    destruct (forallb (value_eqb v) w) eqn:A; [|discriminate].
    destruct (group_values keys (skipn (List.length g) vs)) as [r'|] eqn:G; [|discriminate]. injection H as <-.
    cbn in L. rewrite app_length in L.
    assert (FL : List.length (v :: w) = List.length g) by (rewrite <- F, firstn_length; lia).
    assert (ALL : v :: w = map (fun _ => v) g).
    { rewrite forallb_forall in A. clear -FL A.
      assert (W : forall y, In y (v :: w) -> y = v).
      { intros y [<- |Y]; auto. specialize (A y Y). unfold value_eqb in A. destruct (value_dec v y); congruence. }
      revert FL W. generalize (v :: w) as u. clear A w. induction g as [|x g IH]; intros [|y u] FL W; cbn in *; try discriminate; auto.
      rewrite (W y (or_introl eq_refl)). f_equal. apply IH; [lia|]. intros z Z. apply W. right. exact Z. }
    apply IH in G as [G1 G2]; [|intros h HH; apply NE; right; exact HH|rewrite skipn_length; lia].
    cbn [spread List.length]. split; [|lia]. rewrite <- ALL, <- G1, <- F, firstn_skipn. reflexivity.
Qed.
Lemma spread_group : forall keys r, (forall g, In g keys -> g <> []) -> List.length r = List.length keys ->
    group_values keys (spread keys r) = Some r.
Proof.
  induction keys as [|g keys IH]; intros [|v r] NE L; cbn in L; try discriminate; auto.
  cbn [spread group_values]. 
  replace (List.length g) with (List.length (map (fun _ : lh => v) g)) by apply map_length.
  rewrite firstn_app, Nat.sub_diag, firstn_O, app_nil_r, firstn_all, skipn_app, Nat.sub_diag, skipn_all. cbn [app skipn].
  destruct g as [|x g]; [destruct (NE []); [left; reflexivity|reflexivity]|]. cbn [map].
  rewrite IH by (auto; intros h H; apply NE; right; exact H).
  assert (A : forallb (value_eqb v) (map (fun _ : lh => v) g) = true).
  { apply forallb_forall. intros y Y. apply in_map_iff in Y as (_ & <- & _). unfold value_eqb. destruct (value_dec v v); congruence. }
  rewrite A. reflexivity.
Qed.

(** Values and what is said *)
Lemma last_valued_map : forall l m ds, last_valued l (map (fun p => (p, m)) ds) =
   match ds with [] => None | d :: r => match last_valued l (map (fun p => (p, m)) r) with Some v => Some v | None => valued d l end end.
Proof. intros l m [|d r]; reflexivity. Qed.
Lemma last_valued_app : forall l a b, last_valued l (a ++ b) = match last_valued l b with Some v => Some v | None => last_valued l a end.
Proof.
  induction a as [|d r IH]; intros b; cbn [last_valued app]; [destruct (last_valued l b); reflexivity|].
  rewrite IH. destruct (last_valued l b); reflexivity.
Qed.
Lemma last_valued_say : forall l m ds v, last_say l ds = Some (Value v) -> last_valued l (map (fun p => (p, m)) ds) = Some v.
Proof.
  induction ds as [|d r IH]; cbn [last_say]; intros v H; [discriminate|]. rewrite last_valued_map.
  destruct (last_say l r) as [y|] eqn:E.
  - injection H as ->. rewrite (IH v eq_refl). reflexivity.
  - assert (N : last_valued l (map (fun p => (p, m)) r) = None).
    { clear -E. induction r as [|e r IH]; auto. cbn [last_say] in E. rewrite last_valued_map.
      destruct (last_say l r); [discriminate|]. rewrite IH; auto. unfold valued. rewrite E. reflexivity. }
    rewrite N. unfold valued. rewrite H. reflexivity.
Qed.
Lemma last_valued_silent : forall l m ds, last_say l ds = None -> last_valued l (map (fun p => (p, m)) ds) = None.
Proof.
  induction ds as [|e r IH]; intros E; auto. cbn [last_say] in E. rewrite last_valued_map.
  destruct (last_say l r); [discriminate|]. rewrite IH; auto. unfold valued. rewrite E. reflexivity.
Qed.
Lemma last_valued_in : forall l m ds v, last_valued l (map (fun p => (p, m)) ds) = Some v -> exists d w, In d ds /\ valued d l = Some w.
Proof.
  induction ds as [|d r IH]; intros v H; rewrite last_valued_map in H; [discriminate|].
  destruct (last_valued l (map (fun p => (p, m)) r)) as [w|] eqn:E.
  - destruct (IH w eq_refl) as (e & w' & I & V). exists e, w'. split; [right; exact I|exact V].
  - exists d, v. split; [left; reflexivity|exact H].
Qed.

Lemma prefix_sh : sh_prefix i = P. Proof. reflexivity. Qed.
Definition start : fl := Fl (map (fun _ => None) ls) 0 0 None.
Lemma start_length : List.length (f_vals start) = List.length ls. Proof. apply map_length. Qed.

Lemma says_longhand : forall r l y, says (PShort i r) l y -> exists x, In x ls /\ l = longhand_id x P.
Proof.
  intros r l y H. inversion H; subst.
  match goal with A : In ?t shorthand_table, B : names i ?t |- _ => rewrite (names_unique i _ s A IN B NM) in * end.
  eexists. split; [|reflexivity]. apply in_concat. eexists. split; [eapply nth_error_In; eauto|assumption].
Qed.

Theorem get_sound : forall valid b r imp, typed_block b ->
    get valid b i = Some (PShort i r, imp) ->
    (forall x j y, In x ls -> cascaded b (longhand_id x P) y j -> exists v, y = Value v) ->
    List.length r = List.length (sh_keys s) /\ (forall l y, says (PShort i r) l y -> cascaded b l y imp) /\ valid (sh_name s) r = true.
Proof.
  intros valid b r imp T G PL. unfold get in G. rewrite (names_find i s IN NM) in G. rewrite prefix_sh in G.
  destruct (from_longhands valid s b P) as [[r' imp']|] eqn:F; [|discriminate]. injection G as -> ->.
  unfold from_longhands in F. fold ls in F. fold start in F.
  destruct (fl_loop s P (block_iter b) start) as [st|] eqn:LP; [|discriminate].
  pose proof (typed_split b T) as [T1 T2].
  assert (TI : forall d m, In (d, m) (block_iter b) -> typed d).
  { intros d m I. unfold block_iter in I. apply in_app_or in I as [I|I]; apply in_map_iff in I as (e & E & I); injection E as <- <-; auto. }
  destruct (loop_effect _ _ _ TI start_length LP) as (L & V & a & c & C1 & C2 & UA & UC).
  cbn [start f_count f_important] in C1, C2. rewrite !Nat.add_0_l in *.
  destruct (Nat.ltb 0 (f_important st) && negb (Nat.eqb (f_important st) (f_count st))) eqn:M; [discriminate|].
  destruct (all_some (f_vals st)) as [vs|] eqn:AS; [|discriminate]. apply all_some_map in AS.
  destruct (group_values (sh_keys s) vs) as [r'|] eqn:GV; [|discriminate].
  destruct (valid (sh_name s) r') eqn:VD; [|discriminate]. injection F as -> <-.
  assert (LV : List.length vs = List.length ls) by (rewrite <- L, AS, map_length; reflexivity).
  destruct (table_ok_at s IN) as (ND & _ & NE & NK & _).
  destruct (group_spread _ _ _ NE LV GV) as [SP LR]. split; [exact LR|]. split; [|exact VD].
  intros l y SY. destruct (says_longhand r l y SY) as (x & X & ->).
  apply In_nth_error in X as [j X]. destruct (spread_valued r j x LR X) as (v & SV & VV).
  assert (Y : y = Value v).
  { assert (S' : say (PShort i r) (longhand_id x P) = Some y).
    { apply says_to_say. exact SY. }
    unfold valued in VV. rewrite S' in VV. destruct y; congruence. }
  subst y.
  pose proof (V j x X) as VJ. rewrite AS, SP, nth_error_map, SV in VJ. cbn [option_map] in VJ.
  assert (LVAL : last_valued (longhand_id x P) (block_iter b) = Some v).
  { destruct (last_valued (longhand_id x P) (block_iter b)) as [w|]; [congruence|].
    cbn [start f_vals] in VJ. rewrite nth_error_map, X in VJ. discriminate. }
  unfold block_iter in LVAL. rewrite last_valued_app in LVAL.
  assert (CAS : exists w j', cascade b (longhand_id x P) = Some (Value w, j')).
  { destruct (cascade b (longhand_id x P)) as [[y j']|] eqn:E.
    - pose proof (proj2 (cascaded_iff b _ y j' T) E) as E'. destruct (PL x j' y (nth_error_In _ _ X) E') as [w ->]. eauto.
    - exfalso. unfold cascade in E. destruct (last_say (longhand_id x P) (b_important b)) eqn:E1; [discriminate|].
      destruct (last_say (longhand_id x P) (b_normal b)) eqn:E2; [discriminate|].
      rewrite (last_valued_silent _ true _ E1), (last_valued_silent _ false _ E2) in LVAL. discriminate. }
  destruct CAS as (w & j' & CAS). apply (cascaded_iff b _ _ _ T).
  assert (U1 : forall d, In d (b_normal b) -> a = 0 -> valued d (longhand_id x P) = None).
  { intros d D A. apply (proj1 UA A d x); [|eapply nth_error_In; eauto]. unfold block_iter. apply in_or_app. left. apply in_map_iff. exists d. auto. }
  assert (U2 : forall d, In d (b_important b) -> c = 0 -> valued d (longhand_id x P) = None).
  { intros d D A. apply (proj1 UC A d x); [|eapply nth_error_In; eauto]. unfold block_iter. apply in_or_app. right. apply in_map_iff. exists d. auto. }
  rewrite C1, C2 in *.
  unfold cascade in CAS |- *. destruct (last_say (longhand_id x P) (b_important b)) as [z|] eqn:E1.
  - injection CAS as -> <-. rewrite (last_valued_say _ true _ _ E1) in LVAL. injection LVAL as ->.
    assert (c <> 0).
    { intros Z. pose proof (last_valued_say _ true _ _ E1) as Q. apply last_valued_in in Q as (d & w & D & W). rewrite (U2 d D Z) in W. discriminate. }
    destruct c; [congruence|]. reflexivity.
  - destruct (last_say (longhand_id x P) (b_normal b)) as [z|] eqn:E2; [|discriminate]. injection CAS as -> <-.
    rewrite (last_valued_silent _ true _ E1), (last_valued_say _ false _ _ E2) in LVAL. injection LVAL as ->.
    assert (a <> 0).
    { intros Z. pose proof (last_valued_say _ false _ _ E2) as Q. apply last_valued_in in Q as (d & w & D & W). rewrite (U1 d D Z) in W. discriminate. }
    destruct c as [|c]; [reflexivity|]. exfalso. cbn [Nat.ltb Nat.leb andb] in M. apply negb_false_iff, Nat.eqb_eq in M. lia.
Qed.

Definition agrees (d : property) : Prop :=
  forall n q, prop_id d = PVp n q -> n = sh_name s \/ (exists x, In x ls /\ lh_name x = n) -> q = P.
Lemma loop_runs : forall ds st, sh_kind s = KPlain -> (forall d m, In (d, m) ds -> agrees d) -> exists st', fl_loop s P ds st = Some st'.
Proof.
  induction ds as [|[d m] r IH]; intros st K A; cbn [fl_loop]; [eauto|].
  assert (S : exists st1 n ck, fl_step s P st (d, m) = Some (st1, n, ck)).
  { specialize (A d m (or_introl eq_refl)). destruct d as [j v|j vs|j v]; cbn [fl_step]; fold ls.
    - destruct (flat_of j ls 0) as [[k l]|] eqn:F; [|eauto].
      destruct (flat_of_some _ _ _ _ _ F) as (_ & KK & I). rewrite Nat.sub_0_r in KK. apply lh_is_iff in I as [I1 I2].
      destruct (lh_vp l && negb (vs_eqb (pid_prefix j) P)) eqn:C; [|eauto]. exfalso.
      apply andb_true_iff in C as [C1 C2]. apply negb_true_iff in C2. destruct j as [n p|n| |n]; try tauto; [|congruence].
      cbn in C2. rewrite (A n p eq_refl) in C2; [rewrite vs_eqb_refl in C2; discriminate|].
      right. exists l. split; [eapply nth_error_In; eauto|exact I1].
    - destruct (sh_is s j) eqn:SI.
      + apply sh_is_names in SI. destruct (sh_vp s && negb (vs_eqb (pid_prefix j) P)) eqn:C; [|eauto]. exfalso.
        apply andb_true_iff in C as [C1 C2]. apply negb_true_iff in C2. destruct j as [n p|n| |n]; cbn in SI; try tauto; [|destruct SI; congruence].
        cbn in C2. rewrite (A n p eq_refl) in C2; [rewrite vs_eqb_refl in C2; discriminate|]. left. symmetry. tauto.
      + rewrite K. destruct (take_longhands (PShort j vs) m P ls 0 st 0). eauto.
    - eauto. }
  destruct S as (st1 & n & ck & S). rewrite S.
  assert (C : (if ck then check_length s n st1 else Some st1) = Some st1) by (unfold check_length; rewrite K; destruct ck; reflexivity).
  rewrite C. apply IH; auto. intros e k I. apply (A e k). right. exact I.
Qed.

Lemma says_own : forall vs j x v, List.length vs = List.length (sh_keys s) -> nth_error ls j = Some x -> nth_error (spread (sh_keys s) vs) j = Some v ->
    says (PShort i vs) (longhand_id x P) (Value v).
Proof.
  intros vs j x v L X E. destruct (spread_nth (sh_keys s) vs j x L X) as (k & g & K & G & E').
  rewrite E in E'. injection E' as ->. apply (says_short i vs s k g x); auto.
  assert (k < List.length vs) by (rewrite L; apply nth_error_Some; rewrite K; discriminate).
  apply nth_error_nth'. exact H.
Qed.

Theorem get_complete : forall valid b vs imp, typed_block b -> sh_kind s = KPlain -> typed (PShort i vs) -> prefixes_agree b (PShort i vs) ->
    valid (sh_name s) vs = true -> ~ mixed b (PShort i vs) imp ->
    (forall l y, says (PShort i vs) l y -> cascaded b l y imp) -> get valid b i = Some (PShort i vs, imp).
Proof.
  intros valid b vs imp T K TP A VD MX C. pose proof (typed_short _ _ _ TP IN NM) as LV.
  pose proof (typed_split b T) as [T1 T2].
  assert (TI : forall d m, In (d, m) (block_iter b) -> typed d).
  { intros d m I. unfold block_iter in I. apply in_app_or in I as [I|I]; apply in_map_iff in I as (e & E & I); injection E as <- <-; auto. }
  assert (SPR : forall j x, nth_error ls j = Some x -> exists v, nth_error (spread (sh_keys s) vs) j = Some v /\ says (PShort i vs) (longhand_id x P) (Value v)).
  { intros j x X. destruct (spread_valued vs j x LV X) as (v & E & _). exists v. split; [exact E|]. exact (says_own vs j x v LV X E). }
  assert (AG : forall d m, In (d, m) (block_iter b) -> agrees d).
  { intros d m I n q E D. refine (A d n q _ E _).
    - unfold block_iter in I. apply in_app_or in I as [I|I]; apply in_map_iff in I as (e & Q & I); injection Q as <- <-; auto.
    - destruct D as [-> |(x & X & <-)].
      + left. exact (names_name i s NM).
      + right. apply In_nth_error in X as [j X]. destruct (SPR j x X) as (v & _ & S). eexists. eexists. split; [exact S|apply longhand_id_name]. }
  destruct (loop_runs (block_iter b) start K AG) as [st LP].
  destruct (loop_effect _ _ _ TI start_length LP) as (L & V & a & c & C1 & C2 & UA & UC).
  cbn [start f_count f_important] in C1, C2. rewrite !Nat.add_0_l in *.
  assert (FV : f_vals st = map Some (spread (sh_keys s) vs)).
  { apply (nth_ext _ _ None None); [rewrite L, map_length, spread_length; auto|].
    intros j J. rewrite L in J. destruct (nth_error ls j) as [x|] eqn:X; [|apply nth_error_None in X; lia].
    destruct (SPR j x X) as (v & E & S). pose proof (V j x X) as VJ.
    assert (LL : last_valued (longhand_id x P) (block_iter b) = Some v).
    { specialize (C _ _ S). apply (cascaded_iff b _ _ _ T) in C. unfold cascade in C. unfold block_iter. rewrite last_valued_app.
      destruct (last_say (longhand_id x P) (b_important b)) as [z|] eqn:E1.
      - injection C as -> _. rewrite (last_valued_say _ true _ _ E1). reflexivity.
      - rewrite (last_valued_silent _ true _ E1). destruct (last_say (longhand_id x P) (b_normal b)) as [z|] eqn:E2; [|discriminate].
        injection C as -> _. exact (last_valued_say _ false _ _ E2). }
    rewrite LL in VJ. erewrite nth_error_nth by exact VJ. symmetry. apply nth_error_nth. rewrite nth_error_map, E. reflexivity. }
  destruct (table_ok_at s IN) as (_ & _ & NE & NK & _).
  assert (HD : exists x, nth_error ls 0 = Some x).
  { exact (concat_head (sh_keys s) NE NK). }
  assert (CNT : if imp then a = 0 /\ c <> 0 else c = 0).
  { assert (OTHER : unvalued (negb imp) (block_iter b)).
    { intros d x I X. unfold valued. destruct (say d (longhand_id x P)) as [[v|v| |v]|] eqn:E; auto. exfalso. apply MX.
      apply In_nth_error in X as [j X]. destruct (SPR j x X) as (v' & _ & S). exists d, (longhand_id x P), (Value v'), v.
      split; [|split; [exact S|apply says_say; eauto]].
      unfold block_iter in I. apply in_app_or in I as [I|I]; apply in_map_iff in I as (e & Q & I); injection Q as <- Q; destruct imp; try discriminate; exact I. }
    destruct imp; cbn [negb] in OTHER; [split; [apply UA; exact OTHER|]|apply UC; exact OTHER].
    intros Z. destruct HD as [x X]. destruct (SPR 0 x X) as (v & _ & S). specialize (C _ _ S). apply (cascaded_iff b _ _ _ T) in C.
    unfold cascade in C. destruct (last_say (longhand_id x P) (b_important b)) as [z|] eqn:E1.
    - injection C as ->. pose proof (last_valued_say _ true _ _ E1) as Q. apply last_valued_in in Q as (d & w & D & W).
      rewrite (proj1 UC Z d x) in W; [discriminate| |eapply nth_error_In; eauto].
      unfold block_iter. apply in_or_app. right. apply in_map_iff. exists d. auto.
    - destruct (last_say (longhand_id x P) (b_normal b)); discriminate. }
  unfold get. rewrite (names_find i s IN NM). change (sh_prefix i) with P. unfold from_longhands. fold ls. fold start. rewrite LP.
  rewrite C1, C2, FV. rewrite (proj2 (all_some_map _ _) eq_refl). rewrite (spread_group _ _ NE LV), VD.
  destruct imp.
  - destruct CNT as [-> CN]. cbn [Nat.add]. rewrite Nat.eqb_refl, andb_false_r. destruct c; [congruence|]. reflexivity.
  - rewrite CNT. reflexivity.
Qed.
End Sh.

(** ** [set] and then [get] *)
Lemma set_in_ids : forall p ds d, In d (set_in p ds) -> prop_id d = prop_id p \/ exists e, In e ds /\ prop_id d = prop_id e.
Proof.
  intros p ds d D. destruct (set_in_cases p ds) as [E|(a & e & e' & c & -> & E & K & _)]; rewrite E in D; apply in_app_or in D.
  - destruct D as [D|[<- |[]]]; eauto.
  - destruct D as [D|[<- |D]].
    + right. exists d. split; auto. apply in_or_app. auto.
    + destruct K as [[_ ->]|[_ K]]; auto. right. exists e. split; [apply in_or_app; right; left; reflexivity|].
      destruct e as [i v|i vs|i v]; try discriminate. cbn in K. destruct (find_sh i); [|discriminate].
      destruct (_ && _); [discriminate|]. destruct (sh_set_longhand s vs p); [|discriminate]. injection K as <-. reflexivity.
    + right. exists d. split; auto. apply in_or_app. right. right. exact D.
Qed.
Lemma set_ids : forall b p imp d, In d (b_important (set b p imp)) \/ In d (b_normal (set b p imp)) ->
    prop_id d = prop_id p \/ exists e, (In e (b_important b) \/ In e (b_normal b)) /\ prop_id d = prop_id e.
Proof.
  intros b p imp d D. unfold set in D. destruct imp; cbn in D; destruct D as [D|D].
  - destruct (set_in_ids _ _ _ D) as [E|(e & I & E)]; eauto.
  - apply filter_In in D as [D _]. eauto.
  - apply filter_In in D as [D _]. eauto.
  - destruct (set_in_ids _ _ _ D) as [E|(e & I & E)]; eauto.
Qed.
Lemma set_get_longhand : forall valid b p imp, typed_block b -> typed p -> ~ short (prop_id p) -> regular (prop_id p) -> prop_id p <> PAll ->
    carried (target b imp) p -> (imp = false -> ~ overruled b p) -> get valid (set b p imp) (prop_id p) = Some (p, imp).
Proof.
  intros valid b p imp T TP S R NA C O.
  assert (EX : exists x, says p (prop_id p) x /\ answer (prop_id p) x = Some p).
  { destruct p as [i v|i vs|i v]; cbn [prop_id] in *.
    - exists (Value v). split; [constructor|reflexivity].
    - destruct TP as [_ (s & A & N & _)]. destruct S. exists s. auto.
    - exists (Raw v). split; [constructor; exact S|reflexivity]. }
  destruct EX as (x & X & AN).
  assert (RP : regular_prop p).
  { intros l y Y. apply says_say in Y; auto. assert (D : dom (prop_id p) l = true).
    { destruct (dom (prop_id p) l) eqn:E; auto. apply (say_dom p l TP NA) in E. congruence. }
    unfold dom in D. rewrite (proj2 (find_none_short _) S) in D. apply pid_eqb_iff in D. subst l. exact R. }
  apply (get_longhand_ok valid (set b p imp) (prop_id p) x imp p); auto.
  - apply set_typed; auto.
  - apply set_wins; auto.
Qed.
Lemma set_get_shorthand : forall valid b i vs imp, typed_block b -> typed (PShort i vs) -> plain i -> regular_prop (PShort i vs) ->
    prefixes_agree b (PShort i vs) -> valid (pid_name i) vs = true ->
    carried (target b imp) (PShort i vs) -> (forall d, In d (target b (negb imp)) -> prop_id d <> i -> ~ touches d (PShort i vs)) ->
    get valid (set b (PShort i vs) imp) i = Some (PShort i vs, imp).
Proof.
  intros valid b i vs imp T TP (s & IN & NM & K) R PA VD C O.
  assert (NA : i <> PAll) by (intros ->; destruct NM).
  pose proof (typed_short _ _ _ TP IN NM) as LV.
  assert (NAME : sh_name s = pid_name i) by exact (names_name i s NM).
  apply (get_complete s i IN NM); auto.
  - intros x X. apply In_nth_error in X as [j X]. destruct (spread_valued s i IN NM vs j x LV X) as (v & E & _).
    apply (R _ (Value v)). exact (says_own s i IN NM vs j x v LV X E).
  - apply set_typed; auto.
  - intros d n q D E Q. apply set_ids in D as [D|(e & I & D)].
    + rewrite E in D. cbn in D. rewrite <- D. reflexivity.
    + rewrite E in D. exact (PA e n q I (eq_sym D) Q).
  - rewrite NAME. exact VD.
  - intros (d & l & x & v & D & X & Y).
    assert (I : In d (target b (negb imp)) /\ prop_id d <> i).
    { destruct imp; cbn in D; unfold drop_id in D; apply filter_In in D as [D E]; apply negb_true_iff, pid_eqb_neq in E; auto. }
    destruct I as [I N]. apply (O d I N). exists l, (Value v), x. auto.
  - intros l y Y. apply set_wins; auto. intros ->. intros (d & D & N & TC). exact (O d D N TC).
Qed.
