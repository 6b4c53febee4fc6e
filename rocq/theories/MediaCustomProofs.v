(** Proofs about custom media queries. *)
From Coq Require Import List String Bool Lia Arith.
From Verif Require Import MediaModel MediaSpec MediaCustomModel MediaPrintProofs MediaShapeProofs.
Import ListNotations.
Open Scope string_scope.
Open Scope list_scope.

(** ** The table is the last definition of each name *)
Lemma table_get_app : forall a b s,
    table_get (a ++ b) s = match table_get a s with Some x => Some x | None => table_get b s end.
Proof.
  induction a as [|[k v] a IH]; intros b s; [reflexivity|]. cbn [app table_get].
  destruct (String.eqb k s); [reflexivity|apply IH].
Qed.

Lemma build_table_rev : forall rules m, fold_left (fun m r => r :: m) rules m = (rev rules ++ m : table).
Proof.
  induction rules as [|r rules IH]; intros m; [reflexivity|]. cbn [fold_left rev].
  rewrite IH, <- app_assoc. reflexivity.
Qed.

Lemma table_get_build : forall rules s, table_get (build_table rules) s = cm_get rules s.
Proof.
  intros rules s. unfold build_table. rewrite build_table_rev, app_nil_r.
  induction rules as [|[k v] rules IH]; [reflexivity|]. cbn [rev cm_get].
  rewrite table_get_app, IH. destruct (cm_get rules s); reflexivity.
Qed.

Lemma build_table_in : forall rules r, In r (build_table rules) <-> In r rules.
Proof.
  intros rules r. unfold build_table. rewrite build_table_rev, app_nil_r. symmetry. apply in_rev.
Qed.

Lemma table_get_in : forall m s l, table_get m s = Some l -> In (s, l) m.
Proof.
  induction m as [|[k v] m IH]; intros s l H; [discriminate H|]. cbn [table_get] in H.
  destruct (String.eqb k s) eqn:E.
  - apply String.eqb_eq in E. injection H as <-. left; congruence.
  - right. apply IH; exact H.
Qed.

Lemma pure_get : forall rules s l,
    pure_rules rules = true -> table_get (build_table rules) s = Some l ->
    l <> [] /\ Forall (fun q => exists c, q = MQ None MAll (Some c)) l.
Proof.
  intros rules s l HP HG. apply table_get_in in HG. apply (proj1 (build_table_in rules _)) in HG.
  unfold pure_rules in HP. rewrite forallb_forall in HP. specialize (HP _ HG). cbn [snd] in HP.
  destruct l as [|q l]; [discriminate HP|]. split; [discriminate|].
  rewrite Forall_forall. rewrite forallb_forall in HP. intros x Hx. specialize (HP x Hx).
  destruct x as [[] [] [c|]]; try discriminate HP. eauto.
Qed.

(** ** Soundness: what is printed has the meaning of the references *)
Section Sound.
  Variable rules : list custom_rule.
  Let m := build_table rules.
  Hypothesis HP : pure_rules rules = true.

  Definition sound (st st' : cstate) (c c' : cond) (r : pres) : Prop :=
    st' = st /\
    match r with
    | POk used => used = true /\ no_custom c' = true
                  /\ forall e, cm_cond rules e c (eval_cond e c')
    | PErr _ => True
    end.

  Definition f_sound (f : cstate -> cond -> option (cstate * cond * pres)) : Prop :=
    forall st c st' c' r, f st c = Some (st', c', r) -> sound st st' c c' r.

  Lemma pc_operands_sound : forall f, f_sound f ->
      forall cs st res st' cs' res',
        pc_operands f st cs res = Some (st', cs', res') ->
        st' = st /\
        ((exists e, res = PErr e) -> exists e, res' = PErr e) /\
        (forall u, res' = POk u -> res = POk u /\ forallb no_custom cs' = true
                   /\ forall e, cm_conds rules e cs (map (eval_cond e) cs')).
  Proof.
    intros f HF cs. induction cs as [|c cs IH]; intros st res st' cs' res' H; cbn [pc_operands] in H.
    - injection H as <- <- <-. split; [reflexivity|]. split; [tauto|].
      intros u Hu. split; [exact Hu|]. split; [reflexivity|]. intros e; constructor.
    - destruct (f st c) as [[[st1 c1] r1]|] eqn:E; [|discriminate H].
      destruct (HF _ _ _ _ _ E) as [-> S1]. destruct r1 as [used|er].
      + destruct S1 as [-> [N1 C1]].
        destruct (pc_operands f st cs res) as [[[st2 cs2] res2]|] eqn:E2; [|discriminate H].
        injection H as <- <- <-. destruct (IH _ _ _ _ _ E2) as [-> [A B]].
        split; [reflexivity|]. split; [exact A|].
        intros u Hu. destruct (B u Hu) as [B1 [B2 B3]]. split; [exact B1|].
        split; [cbn [forallb]; rewrite N1, B2; reflexivity|].
        intros e. cbn [map]. constructor; [apply C1|apply B3].
      + destruct (IH _ _ _ _ _ H) as [-> [A B]]. split; [reflexivity|]. split.
        * intros _. apply A. eauto.
        * intros u Hu. destruct (A (ex_intro _ er eq_refl)) as [e' E']. congruence.
  Qed.

  Lemma pc_queries_sound : forall f, f_sound f ->
      forall qs st res st' cs' res',
        Forall (fun q => exists c, q = MQ None MAll (Some c)) qs ->
        pc_queries f st qs res = Some (st', cs', res') ->
        st' = st /\ List.length cs' = List.length qs /\
        ((exists e, res = PErr e) -> exists e, res' = PErr e) /\
        (forall u, res' = POk u -> res = POk u /\ forallb no_custom cs' = true
                   /\ forall e, cm_queries rules e qs (map (eval_cond e) cs')).
  Proof.
    intros f HF qs. induction qs as [|q qs IH]; intros st res st' cs' res' HQ H; cbn [pc_queries] in H.
    - injection H as <- <- <-. split; [reflexivity|]. split; [reflexivity|]. split; [tauto|].
      intros u Hu. split; [exact Hu|]. split; [reflexivity|]. intros e; constructor.
    - inversion_clear HQ as [|? ? [c ->] HQ']. cbn [mq_type mq_qual mq_cond mtype_eqb oqualifier_eqb andb] in H.
      destruct (f st c) as [[[st1 c1] r1]|] eqn:E; [|discriminate H].
      destruct (HF _ _ _ _ _ E) as [-> S1].
      match type of H with match pc_queries f st qs ?R with _ => _ end = _ => set (res1 := R) in H end.
      destruct (pc_queries f st qs res1) as [[[st2 cs2] res2]|] eqn:E2; [|discriminate H].
      injection H as <- <- <-. destruct (IH _ _ _ _ _ HQ' E2) as [-> [L [A B]]].
      split; [reflexivity|]. split; [cbn; rewrite L; reflexivity|]. split.
      + intros [er Er]. apply A. unfold res1. destruct r1; eauto.
      + intros u Hu. destruct (B u Hu) as [B1 [B2 B3]]. unfold res1 in B1.
        destruct r1 as [used|er]; [|discriminate B1]. destruct S1 as [-> [N1 C1]].
        split; [exact B1|]. split; [cbn [forallb]; rewrite N1, B2; reflexivity|].
        intros e. cbn [map]. constructor; [|apply B3].
        assert (Q := CMq_some rules e None MAll c _ (C1 e)). cbn in Q.
        destruct (eval_cond e c1) as [[]|]; exact Q.
  Qed.

  Lemma process_sound : forall n seen, f_sound (process_condition n m seen).
  Proof.
    induction n as [|n IH]; intros seen st c st' c' r H; [discriminate H|].
    cbn [process_condition] in H. destruct c as [f|d|op cs|l].
    - assert (G : (forall s, f <> FBoolean (NCustom s)) ->
                  Some (st, CFeature f, POk true) = Some (st', c', r) -> sound st st' (CFeature f) c' r).
      { intros Hf E. injection E as <- <- <-. split; [reflexivity|]. split; [reflexivity|].
        split; [|intros e; apply CM_feature; exact Hf].
        destruct f as [| [] | |]; try reflexivity. exfalso; eapply Hf; reflexivity. }
      destruct f as [n0 v|nm| |]; try (apply G; [discriminate|exact H]).
      destruct nm as [|s|]; try (apply G; [discriminate|exact H]). clear G.
      destruct (existsb (String.eqb s) seen).
      { injection H as <- <- <-. split; [reflexivity|exact I]. }
      destruct (table_get m s) as [qs|] eqn:EG.
      2:{ injection H as <- <- <-. split; [reflexivity|exact I]. }
      destruct (pure_get _ _ _ HP EG) as [Hne HQ].
      destruct (pc_queries (process_condition n m (s :: seen)) st qs (POk true))
        as [[[st1 cs] res]|] eqn:E; [|discriminate H].
      destruct (pc_queries_sound _ (IH (s :: seen)) _ _ _ _ _ _ HQ E) as [-> [L [_ B]]].
      destruct res as [u|er]; [|injection H as <- <- <-; split; [reflexivity|exact I]].
      destruct (B u eq_refl) as [_ [B2 B3]].
      assert (EG' : cm_get rules s = Some qs) by (rewrite <- table_get_build; exact EG).
      assert (R : forall e, cm_cond rules e (CFeature (FBoolean (NCustom s)))
                                    (tany (map (eval_cond e) cs))).
      { intros e. eapply CM_ref; [exact EG'|]. destruct qs as [|q qs]; [congruence|].
        constructor. apply B3. }
      destruct cs as [|x [|y cs]].
      + destruct qs; [congruence|discriminate L].
      + injection H as <- <- <-. split; [reflexivity|]. split; [reflexivity|].
        cbn [forallb] in B2. rewrite andb_true_r in B2. split; [exact B2|].
        intros e. specialize (R e). cbn [map tany fold_right] in R. rewrite tor_false_r in R. exact R.
      + injection H as <- <- <-. split; [reflexivity|]. split; [reflexivity|].
        split; [exact B2|]. exact R.
    - destruct (process_condition n m seen st d) as [[[st1 d1] r1]|] eqn:E; [|discriminate H].
      destruct (IH _ _ _ _ _ _ E) as [-> S1]. destruct r1 as [used|er].
      + destruct S1 as [-> [N1 C1]]. destruct st as [ty qu].
        assert (C2 : forall e, cm_cond rules e (CNot d) (eval_cond e (CNot d1)))
          by (intros e; cbn [eval_cond]; constructor; apply C1).
        destruct d1 as [f1|x|op1 cs1|l1]; injection H as <- <- <-; (split; [reflexivity|]);
          (split; [reflexivity|]); (split; [exact N1|]); try exact C2.
        intros e. specialize (C2 e). cbn [eval_cond] in C2. rewrite tnot_tnot in C2. exact C2.
      + destruct st. injection H as <- <- <-. split; [reflexivity|exact I].
    - destruct (pc_operands (process_condition n m seen) st cs (POk true))
        as [[[st1 cs1] res]|] eqn:E; [|discriminate H].
      destruct (pc_operands_sound _ (IH seen) _ _ _ _ _ _ E) as [-> [_ B]].
      injection H as <- <- <-. split; [reflexivity|]. destruct res as [u|]; [|exact I].
      destruct (B u eq_refl) as [B1 [B2 B3]]. split; [congruence|]. split; [exact B2|].
      intros e. destruct op; [apply CM_and|apply CM_or]; apply B3.
    - injection H as <- <- <-. split; [reflexivity|]. split; [reflexivity|]. split; [reflexivity|].
      intros e. constructor.
  Qed.
End Sound.

(** ** Completeness: an error means that the references have no meaning *)
Section Grounded.
  Variable rules : list custom_rule.

  (** References can be unfolded at most [n] deep. *)
  Inductive gr : nat -> cond -> Prop :=
  | gr_ref : forall n s l,
      cm_get rules s = Some l ->
      (forall q c, In q l -> mq_cond q = Some c -> gr n c) ->
      gr (S n) (CFeature (FBoolean (NCustom s)))
  | gr_feature : forall n f, (forall s, f <> FBoolean (NCustom s)) -> gr n (CFeature f)
  | gr_not : forall n c, gr n c -> gr n (CNot c)
  | gr_op : forall n op cs, (forall c, In c cs -> gr n c) -> gr n (COp op cs)
  | gr_unknown : forall n l, gr n (CUnknown l).

  Lemma gr_mono : forall c n k, gr n c -> n <= k -> gr k c.
  Proof.
    intros c n k H. revert k. induction H as [n s l G H IH|n f Hf|n c H IH|n op cs H IH|n l]; intros k Hk.
    - destruct k as [|k]; [lia|]. econstructor; [exact G|]. intros q c Hq Hc.
      eapply IH; [exact Hq|exact Hc|lia].
    - constructor; exact Hf.
    - constructor; apply IH; exact Hk.
    - constructor. intros c Hc. apply IH; [exact Hc|exact Hk].
    - constructor.
  Qed.

  Scheme cm_cond_mind := Induction for cm_cond Sort Prop
    with cm_conds_mind := Induction for cm_conds Sort Prop
    with cm_query_mind := Induction for cm_query Sort Prop
    with cm_list_mind := Induction for cm_list Sort Prop
    with cm_queries_mind := Induction for cm_queries Sort Prop.

  Lemma cm_gr : forall e c t, cm_cond rules e c t -> exists n, gr n c.
  Proof.
    intros e.
    apply (cm_cond_mind rules e
             (fun c t _ => exists n, gr n c)
             (fun cs ts _ => exists n, forall c, In c cs -> gr n c)
             (fun q t _ => exists n, forall c, mq_cond q = Some c -> gr n c)
             (fun l t _ => exists n, forall q c, In q l -> mq_cond q = Some c -> gr n c)
             (fun l ts _ => exists n, forall q c, In q l -> mq_cond q = Some c -> gr n c)).
    - intros s l t G _ [n IH]. exists (S n). econstructor; eauto.
    - intros f Hf. exists 0. constructor; exact Hf.
    - intros c t _ [n IH]. exists n. constructor; exact IH.
    - intros cs ts _ [n IH]. exists n. constructor; exact IH.
    - intros cs ts _ [n IH]. exists n. constructor; exact IH.
    - intros l. exists 0. constructor.
    - exists 0. intros c [].
    - intros c cs t ts _ [n1 IH1] _ [n2 IH2]. exists (Nat.max n1 n2). intros x [<-|Hx].
      + eapply gr_mono; [exact IH1|lia].
      + eapply gr_mono; [apply IH2; exact Hx|lia].
    - intros q t. exists 0. cbn. discriminate.
    - intros q t c v _ [n IH]. exists n. cbn. intros x Hx. injection Hx as <-. exact IH.
    - exists 0. intros q c [].
    - intros q l ts _ IH. exact IH.
    - exists 0. intros q c [].
    - intros q l t ts _ [n1 IH1] _ [n2 IH2]. exists (Nat.max n1 n2). intros x c [<-|Hx] Hc.
      + eapply gr_mono; [apply IH1; exact Hc|lia].
      + eapply gr_mono; [eapply IH2; eauto|lia].
  Qed.

  Lemma gr_minimal : forall k s, gr k (CFeature (FBoolean (NCustom s))) ->
      ~ ~ exists h, h < k /\ ~ gr h (CFeature (FBoolean (NCustom s))) /\
           exists l, cm_get rules s = Some l /\
                forall q c, In q l -> mq_cond q = Some c -> gr h c.
  Proof.
    induction k as [|k IH]; intros s H K.
    - inversion H as [|n f Hf| | |]; subst. eapply Hf; reflexivity.
    - inversion H as [n s' l G HL E1 E2|n f Hf| | |]; subst; [|eapply Hf; reflexivity].
      assert (N : ~ gr k (CFeature (FBoolean (NCustom s)))).
      { intros Hk. apply (IH s Hk). intros [h [A B]]. apply K. exists h. split; [lia|exact B]. }
      apply K. exists k. split; [lia|]. split; [exact N|]. exists l. split; [exact G|exact HL].
  Qed.

  Let m := build_table rules.
  Hypothesis HP : pure_rules rules = true.

  Lemma pc_operands_err : forall f cs st res st' cs' e,
      pc_operands f st cs res = Some (st', cs', PErr e) ->
      (exists e', res = PErr e') \/
      exists st1 c st2 c2 e', In c cs /\ f st1 c = Some (st2, c2, PErr e').
  Proof.
    intros f cs. induction cs as [|c cs IH]; intros st res st' cs' e H; cbn [pc_operands] in H.
    - injection H as _ _ ->. left; eauto.
    - destruct (f st c) as [[[st1 c1] [u|e1]]|] eqn:E; [| |discriminate H].
      + destruct (pc_operands f st1 cs res) as [[[st2 cs2] res2]|] eqn:E2; [|discriminate H].
        injection H as -> _ ->. destruct (IH _ _ _ _ _ E2) as [A|[x [y [z [w [e' [B C]]]]]]]; [tauto|].
        right. exists x, y, z, w, e'. split; [right; exact B|exact C].
      + right. exists st, c, st1, c1, e1. split; [left; reflexivity|exact E].
  Qed.

  Lemma pc_queries_err : forall f qs st res st' cs' e,
      Forall (fun q => exists c, q = MQ None MAll (Some c)) qs ->
      pc_queries f st qs res = Some (st', cs', PErr e) ->
      (exists e', res = PErr e') \/
      exists st1 q c st2 c2 e', In q qs /\ mq_cond q = Some c /\ f st1 c = Some (st2, c2, PErr e').
  Proof.
    intros f qs. induction qs as [|q qs IH]; intros st res st' cs' e HQ H; cbn [pc_queries] in H.
    - injection H as _ _ ->. left; eauto.
    - inversion_clear HQ as [|? ? [c ->] HQ'].
      cbn [mq_type mq_qual mq_cond mtype_eqb oqualifier_eqb andb] in H.
      destruct (f st c) as [[[st1 c1] r1]|] eqn:E; [|discriminate H].
      match type of H with match pc_queries f st1 qs ?R with _ => _ end = _ => set (res1 := R) in H end.
      destruct (pc_queries f st1 qs res1) as [[[st2 cs2] res2]|] eqn:E2; [|discriminate H].
      injection H as -> _ ->.
      destruct (IH _ _ _ _ _ HQ' E2) as [[e' A]|[x [y [z [w [v [e' [B C]]]]]]]].
      + destruct r1 as [u|er].
        * left. unfold res1 in A. eauto.
        * right. exists st, (MQ None MAll (Some c)), c, st1, c1, er.
          split; [left; reflexivity|]. split; [reflexivity|exact E].
      + right. exists x, y, z, w, v, e'. split; [right; exact B|exact C].
  Qed.

  Lemma process_no_err : forall n h c seen st st' c' e,
      gr h c -> (forall s, In s seen -> ~ gr h (CFeature (FBoolean (NCustom s)))) ->
      process_condition n m seen st c = Some (st', c', PErr e) -> False.
  Proof.
    induction n as [|n IH]; intros h c seen st st' c' e HG HS H; [discriminate H|].
    cbn [process_condition] in H. destruct c as [f|d|op cs|l].
    - destruct f as [n0 v|nm| |]; try discriminate H. destruct nm as [|s|]; try discriminate H.
      destruct (existsb (String.eqb s) seen) eqn:ES.
      { apply existsb_exists in ES. destruct ES as [x [Hx Ex]]. apply String.eqb_eq in Ex. subst x.
        apply (HS s Hx). exact HG. }
      apply (gr_minimal h s HG). intros [k [Hk [HN [l [Gl Hl]]]]].
      unfold m in H. rewrite table_get_build, Gl in H. fold m in H.
      assert (HQ : Forall (fun q => exists c, q = MQ None MAll (Some c)) l).
      { apply (pure_get rules s l HP). rewrite table_get_build. exact Gl. }
      destruct (pc_queries (process_condition n m (s :: seen)) st l (POk true))
        as [[[st1 cs] [u|e1]]|] eqn:E; [| |discriminate H].
      { destruct cs as [|x [|y cs]]; discriminate H. }
      destruct (pc_queries_err _ _ _ _ _ _ _ HQ E) as [[e' A]|[x [q [c [y [z [e' [B [C D]]]]]]]]].
      { discriminate A. }
      eapply (IH k); [eapply Hl; eauto| |exact D].
      intros s' [<-|Hs']; [exact HN|]. intros G'. apply (HS s' Hs'). eapply gr_mono; [exact G'|lia].
    - inversion HG as [| |? ? HG'| |]; subst.
      destruct (process_condition n m seen st d) as [[[[ty qu] d1] [[|]|e1]]|] eqn:E; try discriminate H.
      + destruct d1; discriminate H.
      + eapply IH; [exact HG'|exact HS|exact E].
    - inversion HG as [| | |? ? ? HG'|]; subst.
      destruct (pc_operands (process_condition n m seen) st cs (POk true))
        as [[[st1 cs1] res]|] eqn:E; [|discriminate H]. injection H as -> _ ->.
      destruct (pc_operands_err _ _ _ _ _ _ _ E) as [[e' A]|[x [c [y [z [e' [B C]]]]]]].
      { discriminate A. }
      eapply IH; [apply HG'; exact B|exact HS|exact C].
    - discriminate H.
  Qed.
End Grounded.

(** ** Termination: the fuel is always enough *)
Section Fuel.
  Variable m : table.

  Definition unseen (seen : list string) : nat :=
    List.length (filter (fun r => negb (existsb (String.eqb (fst r)) seen)) m).

  Lemma filter_le : forall {A} (p q : A -> bool) t,
      (forall x, p x = true -> q x = true) ->
      List.length (filter p t) <= List.length (filter q t).
  Proof.
    intros A p q t H. induction t as [|x t IH]; [reflexivity|]. cbn [filter].
    destruct (p x) eqn:E; [rewrite (H x E); cbn [List.length]; lia|].
    destruct (q x); cbn [List.length]; lia.
  Qed.

  Lemma filter_lt : forall {A} (p q : A -> bool) t y,
      (forall x, p x = true -> q x = true) -> In y t -> p y = false -> q y = true ->
      List.length (filter p t) < List.length (filter q t).
  Proof.
    intros A p q t y H Hin Hp Hq. induction t as [|x t IH]; [destruct Hin|]. cbn [filter].
    destruct Hin as [->|Hin].
    - rewrite Hp, Hq. cbn [List.length]. pose proof (filter_le p q t H). lia.
    - specialize (IH Hin). destruct (p x) eqn:E; [rewrite (H x E); cbn [List.length]; lia|].
      destruct (q x); cbn [List.length]; lia.
  Qed.

  Lemma unseen_lt : forall s l seen,
      table_get m s = Some l -> existsb (String.eqb s) seen = false ->
      unseen (s :: seen) < unseen seen.
  Proof.
    intros s l seen HG HS. apply table_get_in in HG. unfold unseen.
    apply filter_lt with (y := (s, l)); [|exact HG| |].
    - intros x. cbn [existsb]. rewrite !negb_true_iff. intros H. apply orb_false_iff in H. tauto.
    - cbn [fst existsb]. rewrite String.eqb_refl. reflexivity.
    - cbn [fst]. rewrite HS. reflexivity.
  Qed.

  Lemma nest_le : forall s l q c, table_get m s = Some l -> In q l -> mq_cond q = Some c ->
      cond_nest c <= table_nest m.
  Proof.
    intros s l q c HG Hq Hc. apply table_get_in in HG.
    assert (A : query_nest q <= list_nest l).
    { clear HG. induction l as [|x l IH]; [destruct Hq|]. cbn [list_nest fold_right].
      destruct Hq as [->|Hq]; [lia|]. specialize (IH Hq). unfold list_nest in IH. lia. }
    unfold query_nest in A. rewrite Hc in A.
    assert (B : list_nest l <= table_nest m).
    { clear - HG. induction m as [|x t IH]; [destruct HG|]. cbn [table_nest fold_right].
      destruct HG as [->|HG]; [cbn [snd]; lia|]. specialize (IH HG). unfold table_nest in IH. lia. }
    lia.
  Qed.

  Lemma pc_operands_some : forall f cs,
      (forall st c, In c cs -> f st c <> None) -> forall st res, pc_operands f st cs res <> None.
  Proof.
    intros f cs. induction cs as [|c cs IH]; intros HF st res; cbn [pc_operands]; [discriminate|].
    destruct (f st c) as [[[st1 c1] [u|e]]|] eqn:E.
    - destruct (pc_operands f st1 cs res) as [[[st2 cs2] res2]|] eqn:E2; [discriminate|].
      exfalso. eapply IH; [|exact E2]. intros; apply HF; right; assumption.
    - apply IH. intros; apply HF; right; assumption.
    - exfalso. eapply HF; [left; reflexivity|exact E].
  Qed.

  Lemma pc_queries_some : forall f qs,
      (forall st q c, In q qs -> mq_cond q = Some c -> f st c <> None) ->
      forall st res, pc_queries f st qs res <> None.
  Proof.
    intros f qs. induction qs as [|q qs IH]; intros HF st res; [discriminate|].
    assert (HF' : forall st q c, In q qs -> mq_cond q = Some c -> f st c <> None)
      by (intros s0 q0 c0 H1 H2; eapply HF; [right; exact H1|exact H2]).
    specialize (IH HF').
    assert (G : forall st res,
      match mq_cond q with
        | None => pc_queries f st qs res
        | Some c =>
            match f st c with
            | None => None
            | Some (st1, c1, rc) =>
                let res1 := match rc with PErr e => PErr e | POk _ => res end in
                match pc_queries f st1 qs res1 with
                | None => None
                | Some (st2, cs2, res2) => Some (st2, c1 :: cs2, res2)
                end
            end
        end <> None).
    { intros st0 res0. destruct (mq_cond q) as [c|] eqn:Ec; [|apply IH].
      destruct (f st0 c) as [[[st1 c1] rc]|] eqn:E.
      - cbv zeta. match goal with |- context [pc_queries f st1 qs ?R] => specialize (IH st1 R);
          destruct (pc_queries f st1 qs R) as [[[? ?] ?]|]; [discriminate|exact IH] end.
      - exfalso. eapply HF; [left; reflexivity|exact Ec|exact E]. }
    cbn [pc_queries]. destruct (mtype_eqb (mq_type q) MAll && oqualifier_eqb (mq_qual q) None); [apply G|].
    destruct st as [ty qu]. destruct (mtype_eqb ty MAll).
    - destruct (oqualifier_eqb qu (Some QNot)); [apply IH|apply G].
    - destruct (negb (mtype_eqb (mq_type q) ty) || negb (oqualifier_eqb (mq_qual q) qu)); [apply IH|apply G].
  Qed.

  Lemma process_some : forall n c seen st,
      cond_nest c + unseen seen * S (table_nest m) < n ->
      process_condition n m seen st c <> None.
  Proof.
    induction n as [|n IH]; intros c seen st Hn; [lia|].
    cbn [process_condition]. destruct c as [f|d|op cs|l]; [| | |discriminate].
    - destruct f as [n0 v|nm| |]; try discriminate. destruct nm as [|s|]; try discriminate.
      destruct (existsb (String.eqb s) seen) eqn:ES; [discriminate|].
      destruct (table_get m s) as [qs|] eqn:EG; [|discriminate].
      pose proof (unseen_lt s qs seen EG ES) as HU. cbn [cond_nest] in Hn.
      pose proof (pc_queries_some (process_condition n m (s :: seen)) qs) as HQ.
      specialize (HQ ltac:(intros st0 q c Hq Hc; apply IH; pose proof (nest_le _ _ _ _ EG Hq Hc); nia)
                         st (POk true)).
      destruct (pc_queries (process_condition n m (s :: seen)) st qs (POk true))
        as [[[st1 cs] [u|e]]|]; [|discriminate|congruence].
      destruct cs as [|x [|y cs]]; discriminate.
    - cbn [cond_nest] in Hn. specialize (IH d seen st ltac:(lia)).
      destruct (process_condition n m seen st d) as [[[[ty qu] d1] [[|]|e]]|]; try discriminate; [|congruence].
      destruct d1; discriminate.
    - pose proof (pc_operands_some (process_condition n m seen) cs) as HO.
      specialize (HO ltac:(intros st0 c Hc; apply IH; 
        assert (cond_nest c < cond_nest (COp op cs));
        [clear - Hc; cbn [cond_nest]; induction cs as [|x cs IHc]; [destruct Hc|];
         cbn [fold_right]; destruct Hc as [->|Hc]; [lia|specialize (IHc Hc); lia]|lia]) st (POk true)).
      destruct (pc_operands (process_condition n m seen) st cs (POk true)) as [[[? ?] ?]|];
        [discriminate|congruence].
  Qed.

  Lemma custom_fuel_enough : forall c st, process_condition (custom_fuel m c) m [] st c <> None.
  Proof.
    intros c st. apply process_some. unfold custom_fuel.
    assert (H : unseen [] <= List.length m).
    { unfold unseen. clear. induction m as [|x t IH]; [reflexivity|]. cbn [filter].
      destruct (negb _); cbn [List.length]; lia. }
    pose proof (Nat.mul_le_mono_r _ _ (S (table_nest m)) H). lia.
  Qed.
End Fuel.

(** ** The main results *)
Theorem transform_custom_total : forall m l, transform_custom_list m l <> CmFuel.
Proof.
  intros m l. induction l as [|q l IH]; [discriminate|]. cbn [transform_custom_list].
  assert (Q : transform_custom_query m q <> CmFuel).
  { unfold transform_custom_query. destruct (mq_cond q) as [c|]; [|discriminate].
    pose proof (custom_fuel_enough m c (mq_type q, mq_qual q)) as H.
    destruct (process_condition (custom_fuel m c) m [] (mq_type q, mq_qual q) c)
      as [[[[ty qu] c1] [u|e]]|]; congruence. }
  destruct (transform_custom_query m q); try discriminate; [|congruence].
  destruct (transform_custom_list m l); try discriminate. exact IH.
Qed.

Lemma transform_custom_query_ok : forall rules q q',
    pure_rules rules = true -> transform_custom_query (build_table rules) q = CmOk q' ->
    mq_type q' = mq_type q /\ mq_qual q' = mq_qual q /\
    match mq_cond q' with Some c => no_custom c = true | None => True end /\
    forall e, cm_query rules e q (eval_query e q').
Proof.
  intros rules [qu ty co] q' HP H. unfold transform_custom_query in H. cbn [mq_cond mq_type mq_qual] in H.
  destruct co as [c|].
  - destruct (process_condition (custom_fuel (build_table rules) c) (build_table rules) [] (ty, qu) c)
      as [[[[ty' qu'] c1] [u|e]]|] eqn:E; try discriminate H.
    injection H as <-. destruct (process_sound rules HP _ _ _ _ _ _ _ E) as [Est [-> [N C]]].
    injection Est as -> ->. cbn [mq_type mq_qual mq_cond]. repeat split; try assumption.
    intros e. pose proof (CMq_some rules e qu ty c _ (C e)) as Q. exact Q.
  - injection H as <-. repeat split; cbn.
    intros e. pose proof (CMq_none rules e qu ty) as Q. unfold eval_query. cbn [mq_qual mq_type mq_cond].
    rewrite tand_true_r. exact Q.
Qed.

Theorem transform_custom_ok : forall rules l l',
    pure_rules rules = true -> transform_custom_list (build_table rules) l = CmOk l' ->
    Forall2 (fun q q' => mq_type q' = mq_type q /\ mq_qual q' = mq_qual q /\
               match mq_cond q' with Some c => no_custom c = true | None => True end /\
               forall e, cm_query rules e q (eval_query e q')) l l'.
Proof.
  intros rules l. induction l as [|q l IH]; intros l' HP H; cbn [transform_custom_list] in H.
  - injection H as <-. constructor.
  - destruct (transform_custom_query (build_table rules) q) as [q1|e|] eqn:E; try discriminate H.
    destruct (transform_custom_list (build_table rules) l) as [l1|e|] eqn:E2; try discriminate H.
    injection H as <-. constructor; [apply transform_custom_query_ok; assumption|].
    apply IH; [exact HP|reflexivity].
Qed.

Theorem transform_custom_err : forall rules l e,
    pure_rules rules = true -> transform_custom_list (build_table rules) l = CmErr e ->
    exists q, In q l /\ forall env v, ~ cm_query rules env q v.
Proof.
  intros rules l er HP. induction l as [|q l IH]; intros H; cbn [transform_custom_list] in H; [discriminate H|].
  destruct (transform_custom_query (build_table rules) q) as [q1|e1|] eqn:E; try discriminate H.
  - destruct (transform_custom_list (build_table rules) l) as [l1|e|] eqn:E2; try discriminate H.
    injection H as ->. destruct (IH eq_refl) as [x [Hx Nx]]. exists x. split; [right; exact Hx|exact Nx].
  - exists q. split; [left; reflexivity|]. intros env v Hv.
    unfold transform_custom_query in E. destruct (mq_cond q) as [c|] eqn:Ec; [|discriminate E].
    destruct (process_condition (custom_fuel (build_table rules) c) (build_table rules) []
                (mq_type q, mq_qual q) c) as [[[[ty qu] c1] [u|e2]]|] eqn:Ep; try discriminate E.
    assert (G : exists n, gr rules n c).
    { inversion Hv; subst; cbn in Ec; [discriminate Ec|]. injection Ec as <-. eapply cm_gr; eassumption. }
    destruct G as [n G].
    eapply (process_no_err rules HP); [exact G| |exact Ep]. intros s [].
Qed.

(** The meaning is unique, so [transform_custom_ok] determines it. *)
Lemma cm_functional : forall m e c t, cm_cond m e c t -> forall t', cm_cond m e c t' -> t = t'.
Proof.
  intros m e.
  apply (cm_cond_mind m e
           (fun c t _ => forall t', cm_cond m e c t' -> t = t')
           (fun cs ts _ => forall ts', cm_conds m e cs ts' -> ts = ts')
           (fun q t _ => forall t', cm_query m e q t' -> t = t')
           (fun l t _ => forall t', cm_list m e l t' -> t = t')
           (fun l ts _ => forall ts', cm_queries m e l ts' -> ts = ts')).
  - intros s l t G _ IH t' H. inversion H as [s' l' t0 G' H'|f Hf| | | |]; subst.
    + rewrite G in G'. injection G' as <-. apply IH; exact H'.
    + exfalso; eapply Hf; reflexivity.
  - intros f Hf t' H. inversion H; subst; [exfalso; eapply Hf; reflexivity|reflexivity].
  - intros c t _ IH t' H. inversion H; subst. f_equal. apply IH; assumption.
  - intros cs ts _ IH t' H. inversion H; subst. f_equal. apply IH; assumption.
  - intros cs ts _ IH t' H. inversion H; subst. f_equal. apply IH; assumption.
  - intros l t' H. inversion H; reflexivity.
  - intros ts' H. inversion H; reflexivity.
  - intros c cs t ts _ IH1 _ IH2 ts' H. inversion H; subst. f_equal; [apply IH1|apply IH2]; assumption.
  - intros q t t' H. inversion H; reflexivity.
  - intros q t c v _ IH t' H. inversion H; subst.
    match goal with H : cm_cond _ _ c ?w |- _ => rewrite (IH w H) end. reflexivity.
  - intros t' H. inversion H; reflexivity.
  - intros q l ts _ IH t' H. inversion H; subst. f_equal. apply IH; assumption.
  - intros ts' H. inversion H; reflexivity.
  - intros q l t ts _ IH1 _ IH2 ts' H. inversion H; subst. f_equal; [apply IH1|apply IH2]; assumption.
Qed.

Theorem transform_custom_ok_iff : forall rules l l',
    pure_rules rules = true -> transform_custom_list (build_table rules) l = CmOk l' ->
    Forall2 (fun q q' =>
               match mq_cond q' with Some c => no_custom c = true | None => True end
               /\ forall e v, cm_query rules e q v <-> v = eval_query e q') l l'.
Proof.
  intros rules l l' HP H. pose proof (transform_custom_ok rules l l' HP H) as F.
  induction F as [|q q' l l' [_ [_ [N C]]] F IH] in H |- *; constructor.
  - split; [exact N|]. intros e v. split; [|intros ->; apply C].
    intros Hv. specialize (C e). inversion Hv; subst; inversion C; subst; try reflexivity.
    match goal with A : cm_cond _ _ ?c ?x, B : cm_cond _ _ ?c ?y |- _ =>
      rewrite (cm_functional _ _ _ _ A _ B) end. reflexivity.
  - cbn [transform_custom_list] in H.
    destruct (transform_custom_query (build_table rules) q); try discriminate H.
    destruct (transform_custom_list (build_table rules) l) as [l1| |]; try discriminate H.
    injection H as _ ->. apply IH. reflexivity.
Qed.
