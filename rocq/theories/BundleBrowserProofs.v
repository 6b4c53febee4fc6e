(** * Proof that the bundle order is the browser's order, for imports without [composes] *)
From Coq Require Import List Bool Arith String Lia.
From Verif Require Import BundleModel BundleSpec BundleOrderProofs BundleInlineProofs.
Import ListNotations.

Section Browser.
Context {M S : Type}.
Notation srule := (srule M S).
Notation conds := (conds M S).
Notation item := (item M S).
Notation istate := (istate M S).
Notation ires := (ires M S).
Variable m_empty : M.
Variable entry : nat.
Variable css : nat -> list nat.
Variable deps : nat -> list dep.
Variable rules : nat -> list srule.
Variable conds_of : nat -> conds.
Hypothesis no_css : forall s, css s = [].
Notation imps := (fun s => dep_files (deps s)).
Notation order_process := (order_process css deps).

(** ** Expansions labelled with the import that each occurrence comes from *)
Notation occ := (nat * (nat * nat))%type.
Inductive lexp : nat -> nat * nat -> list occ -> Prop :=
| LX s lab l : lexp_all s 0 (imps s) l -> lexp s lab (l ++ [(s, lab)])
with lexp_all : nat -> nat -> list nat -> list occ -> Prop :=
| LX_nil s k : lexp_all s k [] []
| LX_cons s k d r l l' : lexp d (s, k) l -> lexp_all s (k + 1) r l' -> lexp_all s k (d :: r) (l ++ l').
Scheme lexp_ind2 := Induction for lexp Sort Prop
  with lexp_all_ind2 := Induction for lexp_all Sort Prop.
Combined Scheme lexp_mut from lexp_ind2, lexp_all_ind2.

Lemma lexp_det : (forall s lab l, lexp s lab l -> forall lab' l', lexp s lab' l' -> map fst l = map fst l')
              /\ (forall s k ds l, lexp_all s k ds l -> forall l', lexp_all s k ds l' -> map fst l = map fst l').
Proof.
  apply lexp_mut.
  - intros s lab l H IH lab' l' H'. inversion H'; subst. rewrite !map_app. cbn. f_equal. apply IH. assumption.
  - intros s k l' H'. inversion H'; subst. reflexivity.
  - intros s k d r l l' H1 IH1 H2 IH2 l0 H'. inversion H'; subst. rewrite !map_app. f_equal; eauto.
Qed.
Lemma lexp_len : forall s lab l lab' l', lexp s lab l -> lexp s lab' l' -> List.length l = List.length l'.
Proof.
  intros s lab l lab' l' H H'. pose proof (proj1 lexp_det _ _ _ H _ _ H') as E.
  apply (f_equal (@List.length nat)) in E. rewrite !map_length in E. exact E.
Qed.
(** every occurrence has an expansion, shorter if it is not the root *)
Lemma lexp_sub : (forall s lab l, lexp s lab l -> forall x, In x (map fst l) ->
                    exists lx, (forall lab', exists l', lexp x lab' l' /\ map fst l' = lx)
                        /\ incl lx (map fst l) /\ (x = s \/ List.length lx < List.length l))
              /\ (forall s k ds l, lexp_all s k ds l -> forall x, In x (map fst l) ->
                    exists lx, (forall lab', exists l', lexp x lab' l' /\ map fst l' = lx)
                        /\ incl lx (map fst l) /\ List.length lx <= List.length l).
Proof.
  apply lexp_mut.
  - intros s lab l H IH x Hx. rewrite map_app in Hx. apply in_app_or in Hx as [Hx|[<-|[]]].
    + destruct (IH x Hx) as (lx & H1 & H2 & H3). exists lx. split; [assumption|]. split.
      * rewrite map_app. intros y Hy. apply in_or_app; auto.
      * right. rewrite app_length. cbn. lia.
    + exists (map fst (l ++ [(s, lab)])). split; [|split; [apply incl_refl|left; reflexivity]].
      intros lab'. exists (l ++ [(s, lab')]). split; [constructor; assumption|]. rewrite !map_app. reflexivity.
  - intros s k x [].
  - intros s k d r l l' H1 IH1 H2 IH2 x Hx. rewrite map_app in Hx. apply in_app_or in Hx as [Hx|Hx].
    + destruct (IH1 x Hx) as (lx & A & B & C). exists lx. split; [assumption|]. split.
      * rewrite map_app. intros y Hy. apply in_or_app; auto.
      * rewrite app_length. destruct C as [->|C]; [|lia].
        destruct (A (s, k)) as (l0 & H0 & <-). rewrite map_length, (lexp_len _ _ _ _ _ H0 H1). lia.
    + destruct (IH2 x Hx) as (lx & A & B & C). exists lx. split; [assumption|]. split.
      * rewrite map_app. intros y Hy. apply in_or_app; auto.
      * rewrite app_length. lia.
Qed.
Lemma lexp_last : forall s lab l, lexp s lab l -> exists l0, l = l0 ++ [(s, lab)] /\ lexp_all s 0 (imps s) l0.
Proof. intros s lab l H. inversion H; subst. eauto. Qed.
Lemma lexp_acyclic : forall s lab l, lexp s lab (l ++ [(s, lab)]) -> ~ In s (map fst l).
Proof.
  intros s lab l H Hin. apply lexp_last in H as H0. destruct H0 as (l0 & E & H0). apply app_inj_tail in E as [<- _].
  destruct (proj2 lexp_sub _ _ _ _ H0 s Hin) as (lx & A & _ & C). destruct (A lab) as (l' & Hl & <-).
  pose proof (lexp_len _ _ _ _ _ H Hl) as E. rewrite app_length in E. rewrite map_length in C. cbn in E. lia.
Qed.
(** children and descendants *)
Definition gbelow (s d : nat) : Prop := exists m, In m (imps s) /\ greach css deps m d.
Lemma edge_imps : forall s d, edge css deps s d <-> In d (imps s).
Proof. intros s d. unfold edge, edges. rewrite no_css. reflexivity. Qed.
Lemma greach_trans : forall a b c, greach css deps a b -> greach css deps b c -> greach css deps a c.
Proof. intros a b c H1 H2. induction H2 as [|b m c H2 IH He]; [assumption|]. exact (GR_step _ _ _ _ _ (IH H1) He). Qed.
Lemma greach_below : forall a b, greach css deps a b -> a = b \/ gbelow a b.
Proof.
  intros a b H. induction H as [|a m b H IH He]; [auto|]. right. apply edge_imps in He.
  destruct IH as [->|(x & H1 & H2)]; [exists b; split; [assumption|constructor]|].
  exists x. split; [assumption|]. econstructor; [exact H2|]. apply edge_imps; assumption.
Qed.
Lemma below_greach : forall a b, gbelow a b -> greach css deps a b.
Proof. intros a b (m & H1 & H2). eapply greach_trans; [|exact H2]. econstructor; [constructor|]. apply edge_imps; assumption. Qed.
Lemma below_trans : forall a b c, gbelow a b -> gbelow b c -> gbelow a c.
Proof. intros a b c (m & H1 & H2) H. exists m. split; [assumption|]. eapply greach_trans; [exact H2|]. apply below_greach; assumption. Qed.
Lemma below_edge : forall s d, In d (imps s) -> gbelow s d.
Proof. intros s d H. exists d. split; [assumption|constructor]. Qed.

(** an expansion contains exactly the descendants *)
Lemma lexp_all_children : forall s k ds l, lexp_all s k ds l -> incl ds (map fst l).
Proof.
  intros s k ds l H. induction H as [|s k d r l l' H1 H2 IH]; [intros ? []|].
  intros x [<-|Hx]; rewrite map_app; apply in_or_app; [left|right; auto].
  apply lexp_last in H1 as (l0 & -> & _). rewrite map_app. apply in_or_app; right; left; reflexivity.
Qed.
Lemma lexp_closed : forall s lab l, lexp s lab l -> forall x y, In x (map fst l) -> In y (imps x) -> In y (map fst l).
Proof.
  intros s lab l H x y Hx Hy. destruct (proj1 lexp_sub _ _ _ H x Hx) as (lx & A & B & _).
  destruct (A lab) as (l' & Hl & <-). apply B. apply lexp_last in Hl as (l0 & -> & H0).
  rewrite map_app. apply in_or_app; left. apply (lexp_all_children _ _ _ _ H0). assumption.
Qed.
Lemma lexp_all_closed : forall s k ds l, lexp_all s k ds l -> forall x y, In x (map fst l) -> In y (imps x) -> In y (map fst l).
Proof.
  intros s k ds l H x y Hx Hy. destruct (proj2 lexp_sub _ _ _ _ H x Hx) as (lx & A & B & _).
  destruct (A (s, 0)) as (l' & Hl & <-). apply B. apply lexp_last in Hl as (l0 & -> & H0).
  rewrite map_app. apply in_or_app; left. apply (lexp_all_children _ _ _ _ H0). assumption.
Qed.
Lemma closed_reach : forall (P : nat -> Prop), (forall x y, P x -> In y (imps x) -> P y) ->
    forall x y, P x -> greach css deps x y -> P y.
Proof. intros P HP x y Hx H. induction H as [|x m y H IH He]; [assumption|]. eapply HP; [apply IH; assumption|]. apply edge_imps; assumption. Qed.
Lemma lexp_below : (forall s lab l, lexp s lab l -> forall x, In x (map fst l) -> x = s \/ gbelow s x)
                /\ (forall s k ds l, lexp_all s k ds l -> forall x, In x (map fst l) -> exists d, In d ds /\ greach css deps d x).
Proof.
  apply lexp_mut.
  - intros s lab l H IH x Hx. rewrite map_app in Hx. apply in_app_or in Hx as [Hx|[<-|[]]]; [|auto].
    right. destruct (IH x Hx) as (d & H1 & H2). exists d; auto.
  - intros s k x [].
  - intros s k d r l l' H1 IH1 H2 IH2 x Hx. rewrite map_app in Hx. apply in_app_or in Hx as [Hx|Hx].
    + exists d. split; [left; reflexivity|]. destruct (IH1 x Hx) as [->|Hb]; [constructor|apply below_greach; assumption].
    + destruct (IH2 x Hx) as (y & Hy & Hr). exists y; split; [right; assumption|assumption].
Qed.
Lemma lexp_no_loop : forall s lab l, lexp s lab l -> ~ gbelow s s.
Proof.
  intros s lab l H (m & Hm & Hr). apply lexp_last in H as H0. destruct H0 as (l0 & -> & H0).
  apply (lexp_acyclic _ _ _ H).
  apply (closed_reach (fun x => In x (map fst l0)) (lexp_all_closed _ _ _ _ H0) m s); [|assumption].
  apply (lexp_all_children _ _ _ _ H0). assumption.
Qed.

(** ** The last import of each file *)
Fixpoint last_lab (x : nat) (l : list occ) : option (nat * nat) :=
  match l with
  | [] => None
  | (y, lab) :: r => match last_lab x r with Some z => Some z | None => if Nat.eqb y x then Some lab else None end
  end.
Lemma last_lab_app : forall x a b, last_lab x (a ++ b) = match last_lab x b with Some z => Some z | None => last_lab x a end.
Proof.
  induction a as [|[y lab] a IH]; intros b; cbn; [destruct (last_lab x b); reflexivity|].
  rewrite IH. destruct (last_lab x b); reflexivity.
Qed.
Lemma last_lab_none : forall x l, ~ In x (map fst l) -> last_lab x l = None.
Proof.
  induction l as [|[y lab] l IH]; intros H; cbn in *; [reflexivity|]. rewrite IH by tauto.
  destruct (Nat.eqb_spec y x); [exfalso; tauto|reflexivity].
Qed.
Lemma last_lab_some : forall x l, In x (map fst l) -> exists lab, last_lab x l = Some lab /\ In (x, lab) l.
Proof.
  induction l as [|[y lab] l IH]; intros H; cbn in *; [destruct H|].
  destruct (in_dec Nat.eq_dec x (map fst l)) as [Hi|Hi].
  - destruct (IH Hi) as (lab' & -> & Hin). eauto.
  - rewrite last_lab_none by assumption. destruct H as [->|H]; [|contradiction].
    rewrite Nat.eqb_refl. eauto.
Qed.
Definition ov (x : nat) (l : list occ) (def : nat * nat) : nat * nat :=
  match last_lab x l with Some z => z | None => def end.
Lemma ov_app : forall x a b def, ov x (a ++ b) def = ov x b (ov x a def).
Proof. intros. unfold ov. rewrite last_lab_app. destruct (last_lab x b); reflexivity. Qed.

(** ** The order phase computes the last import, if shared files keep their imports to themselves *)
Section OrderLast.
Hypothesis acyclic : forall s, greach css deps entry s -> exists lab l, lexp s lab l.
Definition gshared (p : nat) : Prop :=
  exists s1 k1 s2 k2, greach css deps entry s1 /\ greach css deps entry s2 /\ (s1, k1) <> (s2, k2)
    /\ nth_error (imps s1) k1 = Some p /\ nth_error (imps s2) k2 = Some p.
Hypothesis private : forall p x s, gshared p -> gbelow p x -> greach css deps entry s -> In x (imps s) -> s = p \/ gbelow p s.

Lemma no_loop : forall s, greach css deps entry s -> ~ gbelow s s.
Proof. intros s H. destruct (acyclic s H) as (lab & l & Hl). eapply lexp_no_loop; eauto. Qed.

(** [stk]: the sheets being processed *)
Record oinv (stk : list nat) (st : ostate) : Prop := {
  oi_reach : forall v, In v (o_visited st) -> greach css deps entry v;
  oi_closed : forall v d, In v (o_visited st) -> ~ In v stk -> In d (imps v) -> In d (o_visited st) /\ ~ In d stk;
  oi_last : forall v lab l, In v (o_visited st) -> ~ In v stk -> gshared v -> lexp v lab (l ++ [(v, lab)]) ->
              forall x, In x (map fst l) -> last_lab x l = Some (o_parent st x) }.
Record ores (stk : list nat) (s : nat) (st st' : ostate) : Prop := {
  or_inv : oinv stk st';
  or_visited : In s (o_visited st');
  or_new : exists new, o_visited st' = new ++ o_visited st
           /\ forall v, In v new -> greach css deps s v /\ (v = s \/ exists p k, In p new /\ nth_error (imps p) k = Some v);
  or_parent : forall lab l, lexp s lab (l ++ [(s, lab)]) -> forall x, o_parent st' x = ov x l (o_parent st x) }.

Lemma order_last : forall n s st st' stk, order_process n s st = Some st' ->
    oinv stk st -> greach css deps entry s -> (forall t, In t stk -> greach css deps t s /\ In t (o_visited st)) ->
    ~ In s stk -> (In s (o_visited st) -> gshared s) ->
    (forall v, In v (o_visited st) -> v <> entry -> exists p k, In p (o_visited st) /\ nth_error (imps p) k = Some v) ->
    (s <> entry -> exists p k, In p (o_visited st) /\ nth_error (imps p) k = Some s) ->
    ores stk s st st'.
Proof.
  induction n as [|n IH]; intros s st st' stk H I Hr Hstk Hns Hsh Hfol Hfol_s; [discriminate|].
  cbn [BundleModel.order_process] in H. destruct (mem s (o_visited st)) eqn:Em.
  - (* visited before *)
    inversion H; subst. apply mem_in in Em. constructor; auto.
    + exists []. split; [reflexivity|intros ? []].
    + intros lab l Hl x. unfold ov. destruct (in_dec Nat.eq_dec x (map fst l)) as [Hx|Hx].
      * rewrite (oi_last _ _ I s lab l Em Hns (Hsh Em) Hl x Hx). reflexivity.
      * rewrite last_lab_none by assumption. reflexivity.
  - apply mem_not in Em. rewrite no_css in H. cbn [BundleModel.order_css List.length] in H.
    set (st1 := OState (o_parent st) (s :: o_visited st)) in *.
    (* the loop *)
    assert (L : forall ds k stA stB,
               (forall i, nth_error (dep_files ds) i = nth_error (imps s) (k + i)) ->
               order_deps (order_process n) s k ds stA = Some stB ->
               oinv (s :: stk) stA ->
               (exists new, o_visited stA = new ++ s :: o_visited st) ->
               (forall v, In v (o_visited stA) -> v <> entry -> v <> s ->
                   exists p j, In p (o_visited stA) /\ nth_error (imps p) j = Some v /\ (p = s -> j < k)) ->
               oinv (s :: stk) stB
               /\ (exists new, o_visited stB = new ++ o_visited stA
                     /\ forall v, In v new -> greach css deps s v /\ exists p j, (p = s \/ In p new) /\ nth_error (imps p) j = Some v)
               /\ (forall d, In d (dep_files ds) -> In d (o_visited stB))
               /\ (forall l, lexp_all s k (dep_files ds) l -> forall x, o_parent stB x = ov x l (o_parent stA x))).
    { induction ds as [|[d|u] ds IHd]; intros k stA stB Hds Hrun IA HA HF; cbn in Hrun.
      - inversion Hrun; subst. split; [assumption|]. split; [exists []; split; [reflexivity|intros ? []]|].
        split; [intros ? []|]. intros l Hl x. inversion Hl; subst. reflexivity.
      - cbn [dep_files] in Hds.
        assert (Hkd : nth_error (imps s) k = Some d) by (specialize (Hds 0); rewrite Nat.add_0_r in Hds; symmetry; exact Hds).
        assert (Hds' : forall i, nth_error (dep_files ds) i = nth_error (imps s) (k + 1 + i)).
        { intros i. specialize (Hds (Datatypes.S i)). cbn in Hds. rewrite Hds. f_equal. lia. }
        assert (Hd : In d (imps s)) by (eapply nth_error_In; eauto).
        assert (Hrd : greach css deps entry d) by (econstructor; [exact Hr|apply edge_imps; assumption]).
        destruct (order_process n d (set_parent d s k stA)) as [stC|] eqn:Er; [|discriminate].
        assert (HsA : In s (o_visited stA)) by (destruct HA as (new & ->); apply in_or_app; right; left; reflexivity).
        assert (Hcl : forall v x, In v (o_visited stA) -> ~ In v (s :: stk) -> gbelow v x -> In x (o_visited stA) /\ ~ In x (s :: stk)).
        { intros v x Hv Hvn (m & Hm & Hmx).
          apply (closed_reach (fun x => In x (o_visited stA) /\ ~ In x (s :: stk))) with (x := m); [|eapply oi_closed; eauto|assumption].
          intros a b [Ha Ha'] Hb. eapply oi_closed; eauto. }
        assert (I0 : oinv (s :: stk) (set_parent d s k stA)).
        { destruct IA as [IA1 IA2 IA3]. constructor; cbn [o_visited set_parent]; auto.
          intros v lab l Hv Hvn Hvs Hl x Hx. cbn [o_parent set_parent].
          destruct (Nat.eqb_spec x d) as [->|Hne]; [|eapply IA3; eauto]. exfalso.
          assert (Hvd : gbelow v d).
          { apply lexp_last in Hl as H0. destruct H0 as (l0 & E & H0). apply app_inj_tail in E as [<- _].
            destruct (proj2 lexp_below _ _ _ _ H0 d Hx) as (y & Hy & Hyd). exists y; auto. }
          destruct (private v d s Hvs Hvd Hr Hd) as [->|Hvs'].
          - apply Hvn. left; reflexivity.
          - destruct (Hcl v s Hv Hvn Hvs') as [_ Hx']. apply Hx'. left; reflexivity. }
        assert (Rd : ores (s :: stk) d (set_parent d s k stA) stC).
        { apply IH; auto; cbn [o_visited set_parent].
          - intros t [<-|Ht].
            + split; [|assumption]. econstructor; [constructor|]. apply edge_imps; assumption.
            + split.
              * econstructor; [apply Hstk; assumption|]. apply edge_imps; assumption.
              * destruct HA as (new & ->). apply in_or_app; right; right. apply Hstk; assumption.
          - intros [<-|Ht].
            + apply (no_loop s Hr). apply below_edge; assumption.
            + apply (no_loop s Hr). destruct (Hstk d Ht) as [Hds1 _].
              exists d; auto.
          - intros Hv. destruct (Nat.eq_dec d entry) as [->|Hne].
            + exfalso. apply (no_loop s Hr). exists entry; auto.
            + assert (Hds0 : d <> s) by (intros ->; apply (no_loop s Hr), below_edge; assumption).
              destruct (HF d Hv Hne Hds0) as (p & j & Hp & Hj & Hpj).
              exists s, k, p, j. repeat split; auto.
              * apply IA; assumption.
              * intros E. inversion E; subst. specialize (Hpj eq_refl). lia.
          - intros v Hv Hne. destruct (Nat.eq_dec v s) as [->|Hvs].
            + destruct (Hfol_s Hne) as (p & j & Hp & Hj).
              exists p, j. split; [|assumption]. destruct HA as (new & ->). apply in_or_app; right; right; assumption.
            + destruct (HF v Hv Hne Hvs) as (p & j & Hp & Hj & _). eauto.
          - intros _. exists s, k. auto. }
        destruct Rd as [R1 R2 (newC & VC & NC) R4]. cbn [o_visited set_parent] in VC.
        destruct (IHd (k + 1) stC stB Hds' Hrun R1) as (B1 & (newB & VB & NB) & B3 & B4).
        + destruct HA as (new & HA). rewrite VC, HA. exists (newC ++ new). rewrite app_assoc. reflexivity.
        + intros v Hv Hne Hvs. rewrite VC in Hv. apply in_app_or in Hv as [Hv|Hv].
          * destruct (NC v Hv) as [_ [->|(p & j & Hp & Hj)]].
            -- exists s, k. split; [rewrite VC; apply in_or_app; auto|]. split; [assumption|]. intros _. lia.
            -- exists p, j. split; [rewrite VC; apply in_or_app; auto|]. split; [assumption|].
               intros ->. exfalso.
               apply (no_loop s Hr). exists d. split; [assumption|]. apply (NC s Hp).
          * destruct (HF v Hv Hne Hvs) as (p & j & Hp & Hj & Hpj). exists p, j.
            split; [rewrite VC; apply in_or_app; auto|]. split; [assumption|]. intros Hps. specialize (Hpj Hps). lia.
        + split; [assumption|]. split; [|split].
          * exists (newB ++ newC). rewrite VB, VC, app_assoc. split; [reflexivity|].
            intros v Hv. apply in_app_or in Hv as [Hv|Hv].
            -- destruct (NB v Hv) as (Hg & p & j & Hp & Hj). split; [assumption|]. exists p, j. split; [|assumption].
               destruct Hp as [Hp|Hp]; [auto|]. right. apply in_or_app; auto.
            -- destruct (NC v Hv) as [Hg Hp]. split.
               ++ eapply greach_trans; [|exact Hg]. econstructor; [constructor|]. apply edge_imps; assumption.
               ++ destruct Hp as [->|(p & j & Hp & Hj)]; [exists s, k; auto|].
                  exists p, j. split; [|assumption]. right. apply in_or_app; auto.
          * intros x [<-|Hx]; [|auto]. rewrite VB. apply in_or_app; auto.
          * intros l Hl x. inversion Hl as [|? ? ? ? ld lr Hld Hlr]; subst. rewrite (B4 lr Hlr).
            apply lexp_last in Hld as H0. destruct H0 as (ld0 & -> & Hld0).
            rewrite (R4 (s, k) ld0 Hld x). rewrite !ov_app. f_equal. cbn [o_parent set_parent]. unfold ov at 2. cbn.
            rewrite (Nat.eqb_sym d x). destruct (Nat.eqb_spec x d) as [->|Hne]; [|reflexivity].
            unfold ov. rewrite last_lab_none; [reflexivity|]. eapply lexp_acyclic; eauto.
      - apply (IHd k stA stB); auto. }
    assert (I1 : oinv (s :: stk) st1).
    { destruct I as [I1 I2 I3]. constructor; cbn [o_visited o_parent st1].
      - intros v [<-|Hv]; auto.
      - intros v d [<-|Hv] Hvn Hd; [exfalso; apply Hvn; left; reflexivity|].
        assert (Hvn' : ~ In v stk) by (intros Hx; apply Hvn; right; assumption).
        destruct (I2 v d Hv Hvn' Hd) as [A B]. split; [right; assumption|].
        intros [<-|Hx]; [contradiction|contradiction].
      - intros v lab l [<-|Hv] Hvn; [exfalso; apply Hvn; left; reflexivity|].
        apply I3; [assumption|]. intros Hx; apply Hvn; right; assumption. }
    destruct (L (deps s) 0 st1 st' (fun i => eq_refl) H I1) as (B1 & (new & VB & NB) & B3 & B4).
    { exists []. reflexivity. }
    { intros v [Hv|Hv] Hne Hvs; [congruence|]. destruct (Hfol v Hv Hne) as (p & j & Hp & Hj).
      exists p, j. split; [right; assumption|]. split; [assumption|]. intros ->. contradiction. }
    cbn [o_visited st1] in VB.
    assert (Hsv : In s (o_visited st')) by (rewrite VB; apply in_or_app; right; left; reflexivity).
    constructor; auto.
    + destruct B1 as [B11 B12 B13]. constructor; [assumption| |].
      * intros v d Hv Hvn Hd. destruct (Nat.eq_dec v s) as [->|Hvs].
        -- split; [auto|]. intros Hx. destruct (Hstk d Hx) as [Hds _].
           apply (no_loop s Hr). exists d; auto.
        -- destruct (B12 v d Hv) as [A B]; [intros [->|Hx]; congruence|assumption|].
           split; [assumption|]. intros Hx; apply B; right; assumption.
      * intros v lab l Hv Hvn Hvsh Hl x Hx. destruct (Nat.eq_dec v s) as [->|Hvs].
        -- apply lexp_last in Hl as H0. destruct H0 as (l0 & E & H0). apply app_inj_tail in E as [<- _].
           rewrite (B4 l H0 x). unfold ov. destruct (last_lab_some x l Hx) as (z & -> & _). reflexivity.
        -- apply (B13 v lab l Hv); auto. intros [->|Hx']; congruence.
    + exists (new ++ [s]). rewrite <- app_assoc. split; [exact VB|].
      intros v Hv. apply in_app_or in Hv as [Hv|[<-|[]]]; [|split; [constructor|auto]].
      destruct (NB v Hv) as (Hg & p & j & [->|Hp] & Hj); (split; [assumption|right]).
      * exists s, j. split; [apply in_or_app; right; left; reflexivity|assumption].
      * exists p, j. split; [apply in_or_app; auto|assumption].
    + intros lab l Hl x. apply lexp_last in Hl as H0. destruct H0 as (l0 & E & H0). apply app_inj_tail in E as [<- _].
      rewrite (B4 l H0 x). reflexivity.
Qed.

Lemma order_browser : forall n st lab l, order entry css deps n = Some st -> lexp entry lab (l ++ [(entry, lab)]) ->
    forall x, In x (map fst (l ++ [(entry, (entry, 0))])) ->
    last_lab x (l ++ [(entry, (entry, 0))]) = Some (o_parent st x).
Proof.
  intros n st lab l H Hl x Hx. unfold order in H.
  assert (R : ores [] entry (OState (fun _ => (entry, 0)) []) st).
  { eapply order_last; [exact H| | | | | | |]; cbn.
    - constructor; cbn; tauto.
    - constructor.
    - tauto.
    - tauto.
    - tauto.
    - tauto.
    - congruence. }
  destruct R as [_ _ _ HP].
  pose proof (HP lab l Hl x) as E. cbn [o_parent] in E.
    rewrite map_app in Hx. apply in_app_or in Hx as [Hx|[<-|[]]].
    + rewrite last_lab_app. cbn.
      destruct (Nat.eqb_spec entry x) as [<-|Hne]; [exfalso; exact (lexp_acyclic _ _ _ Hl Hx)|].
      rewrite E. unfold ov. destruct (last_lab_some x l Hx) as (z & -> & _). reflexivity.
    + cbn [fst] in *. rewrite last_lab_app. cbn [last_lab]. rewrite Nat.eqb_refl. rewrite E. unfold ov.
      rewrite last_lab_none; [reflexivity|]. eapply lexp_acyclic; eauto.
Qed.
End OrderLast.

(** ** Inlining every file at its last import gives the browser's order *)
Section InlineLast.
Variable parent : nat -> nat * nat.
Hypothesis W_lead : forall s, imports_lead (rules s).
Hypothesis W_err : forall s, no_err (rules s).
Hypothesis W_deps : forall s, deps s = deps_of M S (fun p => p) (rules s).
Notation inline_rules := (inline_rules M S parent).
Notation inline_process := (inline_process M S m_empty css deps rules conds_of parent).

Definition bodies (out : list item) : list nat := body_order (fun i => Some i) out.
Lemma bodies_app : forall a b, bodies (a ++ b) = bodies a ++ bodies b.
Proof. induction a as [|[| |] a IH]; intros b; unfold bodies in *; cbn; rewrite ?IH; reflexivity. Qed.
Definition notin (l : list nat) (x : nat) : bool := if in_dec Nat.eq_dec x l then false else true.
Lemma notin_true : forall l x, notin l x = true <-> ~ In x l.
Proof. intros l x. unfold notin. destruct (in_dec Nat.eq_dec x l); split; congruence. Qed.
Lemma notin_false : forall l x, notin l x = false <-> In x l.
Proof. intros l x. unfold notin. destruct (in_dec Nat.eq_dec x l); split; congruence. Qed.
Lemma filter_filter : forall A (f g : A -> bool) l, filter f (filter g l) = filter (fun x => g x && f x) l.
Proof.
  induction l as [|x l IH]; [reflexivity|]. cbn. destruct (g x) eqn:E; cbn; rewrite IH; reflexivity.
Qed.
Lemma nodup_app_last : forall a b, nodup Nat.eq_dec (a ++ b) = filter (notin b) (nodup Nat.eq_dec a) ++ nodup Nat.eq_dec b.
Proof.
  induction a as [|x a IH]; intros b; [reflexivity|]. cbn [app nodup].
  destruct (in_dec Nat.eq_dec x (a ++ b)) as [H|H]; destruct (in_dec Nat.eq_dec x a) as [H'|H'].
  - apply IH.
  - cbn [filter]. assert (notin b x = false) as ->.
    { apply notin_false. apply in_app_or in H as [H|H]; [contradiction|assumption]. }
    apply IH.
  - exfalso. apply H, in_or_app; auto.
  - cbn [filter]. assert (notin b x = true) as ->.
    { apply notin_true. intros Hb; apply H, in_or_app; auto. }
    cbn. rewrite IH. reflexivity.
Qed.

(** [R]: the occurrences that follow in the browser's order *)
Record ctx (s : nat) (lab : nat * nat) (l R : list occ) : Prop := {
  c_last : forall x, In x (map fst (l ++ R)) -> last_lab x (l ++ R) = Some (parent x);
  c_lab : fst lab = s \/ In (fst lab) (map fst R);
  c_labels : forall x p k, In (x, (p, k)) R -> In p (map fst R);
  c_closed : forall x, In x (map fst R) -> (forall y, gbelow x y -> In y (map fst R)) \/ gbelow x s;
  c_self : ~ In s (map fst R) }.
Definition taken_ok (l R : list occ) (st st' : istate) : Prop :=
  forall x, In x (i_taken st') -> In x (i_taken st) \/ (In x (map fst l) /\ ~ In x (map fst R)).

Lemma lexp_labels : (forall s lab l, lexp s lab l -> forall x p k, In (x, (p, k)) l -> (x = s /\ lab = (p, k)) \/ In p (map fst l))
   /\ (forall s k0 ds l, lexp_all s k0 ds l -> forall x p k, In (x, (p, k)) l -> (p = s /\ k0 <= k) \/ In p (map fst l)).
Proof.
  apply lexp_mut.
  - intros s lab l H IH x p k Hx. apply in_app_or in Hx as [Hx|[Hx|[]]]; [|inversion Hx; auto].
    right. rewrite map_app. apply in_or_app. destruct (IH x p k Hx) as [[-> _]|Hp]; [right; left; reflexivity|auto].
  - intros s k0 x p k [].
  - intros s k0 d r l l' H1 IH1 H2 IH2 x p k Hx. rewrite map_app. apply in_app_or in Hx as [Hx|Hx].
    + destruct (IH1 x p k Hx) as [[_ E]|Hp]; [inversion E; auto|]. right; apply in_or_app; auto.
    + destruct (IH2 x p k Hx) as [[-> Hk]|Hp]; [left; split; [reflexivity|lia]|]. right; apply in_or_app; auto.
Qed.

Lemma inline_last : forall n s lab l R st st', inline_process n s st = IOk st' -> lexp s lab l -> ctx s lab l R ->
    (forall x, In x (i_taken st) -> ~ In x (map fst l)) ->
    bodies (i_out st') = bodies (i_out st) ++ filter (notin (map fst R)) (nodup Nat.eq_dec (map fst l))
    /\ taken_ok l R st st'.
Proof.
  induction n as [|n IH]; intros s lab l R st st' H Hl C Ht; [discriminate|].
  cbn [BundleModel.inline_process] in H. rewrite no_css in H. cbn [BundleModel.inline_css List.length] in H.
  assert (Hml : In s (map fst l)).
  { apply lexp_last in Hl as (l0 & -> & _). rewrite map_app. apply in_or_app; right; left; reflexivity. }
  assert (mem s (i_taken st) = false) as Em by (apply mem_not; intros Hx; exact (Ht s Hx Hml)).
  rewrite Em in H.
  set (st1 := IState (s :: i_taken st) (i_wrapped st) (i_out st)) in *.
  pose proof (lexp_last _ _ _ Hl) as (l0 & -> & Hl0).
  pose proof (lexp_acyclic _ _ _ Hl) as Hac. pose proof (lexp_no_loop _ _ _ Hl) as Hnl.
  destruct C as [C1 C2 C3 C4 C5].
  assert (L : forall rs k b ds stA stB rs' lr lp,
             imports_lead rs -> no_err rs -> ds = deps_of M S (fun p => p) rs ->
             l0 = lp ++ lr -> lexp_all s k (dep_files ds) lr -> incl (dep_files ds) (imps s) ->
             inline_rules (inline_process n) s k b ds rs stA = (IOk stB, rs') ->
             (forall x, In x (i_taken stA) -> ~ In x (map fst lr)) ->
             bodies (i_out stB) = bodies (i_out stA) ++ filter (notin (s :: map fst R)) (nodup Nat.eq_dec (map fst lr))
             /\ taken_ok lr R stA stB).
  { induction rs as [|r rs IHr]; intros k b ds stA stB rs' lr lp Hlead Herr Hds Hlp Hlr Hinc Hrun Htk; cbn in Hrun.
    - inversion Hrun; subst. cbn in Hlr. inversion Hlr; subst. cbn. rewrite app_nil_r.
      split; [reflexivity|]. intros x Hx; auto.
    - destruct r as [t c|ns| |id ts].
      + destruct t as [d|u|]; [| |destruct Herr]; cbn in Hlead, Herr; cbn in Hds; subst ds.
        * cbn [dep_files] in Hlr. inversion Hlr as [|? ? ? ? ld lr' Hld Hlr']; subst.
          set (Rk := lr' ++ [(s, lab)] ++ R).
          assert (HRk : forall x, In x (map fst Rk) <-> In x (map fst lr') \/ x = s \/ In x (map fst R)).
          { intros x. unfold Rk. rewrite !map_app, !in_app_iff. cbn. split; intros [A|[B|D]]; auto; try (destruct B; subst; tauto).
            all: try tauto. }
          assert (Hd : In d (imps s)) by (apply Hinc; left; reflexivity).
          assert (Hinc' : incl (dep_files (deps_of M S (fun p : path => p) rs)) (imps s)) by (intros x Hx; apply Hinc; right; assumption).
          assert (Hdl : In d (map fst ld)).
          { apply lexp_last in Hld as (a & -> & _). rewrite map_app. apply in_or_app; right; left; reflexivity. }
          assert (Cd : ~ In d (map fst Rk) -> ctx d (s, k) ld Rk).
          { intros Hnd. constructor; [| | | |assumption].
            - intros x Hx. specialize (C1 x). unfold Rk in *.
              assert (E : (lp ++ ld ++ lr') ++ [(s, lab)] = lp ++ (ld ++ lr' ++ [(s, lab)])) by (rewrite <- !app_assoc; reflexivity).
              rewrite <- !app_assoc in C1. rewrite last_lab_app in C1.
              destruct (last_lab_some x _ Hx) as (z & Ez & _). rewrite Ez in C1. rewrite Ez. apply C1.
              rewrite map_app. apply in_or_app; right. exact Hx.
            - right. cbn [fst]. apply HRk; auto.
            - intros x p j Hx. apply HRk. unfold Rk in Hx. apply in_app_or in Hx as [Hx|[Hx|Hx]].
              + destruct (proj2 lexp_labels _ _ _ _ Hlr' x p j Hx) as [[-> _]|Hp]; auto.
              + inversion Hx; subst. cbn in C2. destruct C2 as [->|C2]; auto.
              + right; right. eapply C3; eauto.
            - intros x Hx. apply HRk in Hx as [Hx|[->|Hx]].
              + left. intros y Hy. apply HRk. left. apply below_greach in Hy.
                exact (closed_reach (fun x => In x (map fst lr')) (lexp_all_closed _ _ _ _ Hlr') x y Hx Hy).
              + right. apply below_edge; assumption.
              + destruct (C4 x Hx) as [Hc|Hb]; [left; intros y Hy; apply HRk; auto|].
                right. eapply below_trans; [exact Hb|]. apply below_edge; assumption. }
          destruct (is_parent parent d s k) eqn:Ep.
          -- apply is_parent_true in Ep.
             assert (Hnd : ~ In d (map fst Rk)).
             { intros Hin. destruct (last_lab_some d Rk Hin) as ([p j] & Ez & Hz).
               assert (E : last_lab d ((((lp ++ ld ++ lr') ++ [(s, lab)])) ++ R) = Some (parent d)).
               { apply C1. rewrite !map_app, !in_app_iff. auto. }
               rewrite <- !app_assoc in E. rewrite last_lab_app, last_lab_app in E. fold Rk in E.
               change (lr' ++ [(s, lab)] ++ R) with Rk in E. rewrite Ez in E. rewrite Ep in E. inversion E; subst p j; clear E.
               unfold Rk in Hz. apply in_app_or in Hz as [Hz|[Hz|Hz]].
               - destruct (proj2 lexp_labels _ _ _ _ Hlr' d s k Hz) as [[_ Hk]|Hs]; [lia|].
                 apply Hac. rewrite !map_app, !in_app_iff. auto.
               - inversion Hz; subst. apply Hnl. apply below_edge; assumption.
               - apply C5. eapply C3; eauto. }
             destruct (inline_process n d stA) as [stC| |] eqn:Er; try discriminate.
             destruct (IH _ _ _ Rk _ _ Er Hld (Cd Hnd)) as [B1 T1].
             { intros x Hx Hxl. apply (Htk x Hx). rewrite map_app. apply in_or_app; auto. }
             destruct (inline_rules (inline_process n) s (k + 1) true (deps_of M S (fun p : path => p) rs) rs stC) as [res r'] eqn:Ei.
             inversion Hrun; subst res rs'.
             destruct (IHr (k + 1) true _ stC stB r' lr' (lp ++ ld) Hlead Herr eq_refl) as [B2 T2]; auto.
             { rewrite <- app_assoc. reflexivity. }
             { intros x Hx Hxl. destruct (T1 x Hx) as [Hx'|[_ Hx']].
               - apply (Htk x Hx'). rewrite map_app. apply in_or_app; auto.
               - apply Hx'. apply HRk; auto. }
             split.
             ++ rewrite B2, B1, <- app_assoc. f_equal. rewrite map_app, nodup_app_last, filter_app. f_equal.
                rewrite filter_filter. apply filter_ext. intros x. apply eq_true_iff_eq.
                rewrite andb_true_iff, !notin_true, HRk. cbn. split.
                ** intros Hx. split; [tauto|]. intros [<-|Hx']; tauto.
                ** intros [Ha Hb] [Hx|[->|Hx]]; tauto.
             ++ intros x Hx. destruct (T2 x Hx) as [Hx'|[Hx' Hx'']].
                ** destruct (T1 x Hx') as [Ha|[Ha Hb]]; [auto|]. right. split; [rewrite map_app; apply in_or_app; auto|].
                   intros Hc; apply Hb, HRk; auto.
                ** right. split; [rewrite map_app; apply in_or_app; auto|assumption].
          -- assert (Hnp : parent d <> (s, k)) by (intros E; apply is_parent_true in E; congruence).
             assert (Hin : In d (map fst Rk)).
             { destruct (in_dec Nat.eq_dec d (map fst Rk)) as [Hi|Hi]; [assumption|]. exfalso.
               assert (E : last_lab d ((((lp ++ ld ++ lr') ++ [(s, lab)])) ++ R) = Some (parent d)).
               { apply C1. rewrite !map_app, !in_app_iff. auto. }
               rewrite <- !app_assoc in E. rewrite last_lab_app, last_lab_app in E.
               change (lr' ++ [(s, lab)] ++ R) with Rk in E. rewrite (last_lab_none d Rk Hi) in E.
               apply lexp_last in Hld as (a & -> & _). rewrite last_lab_app in E. cbn in E. rewrite Nat.eqb_refl in E.
               congruence. }
             destruct (inline_rules (inline_process n) s (k + 1) b (deps_of M S (fun p : path => p) rs) rs stA) as [res r'] eqn:Ei.
             inversion Hrun; subst res rs'.
             destruct (IHr (k + 1) b _ stA stB r' lr' (lp ++ ld) Hlead Herr eq_refl) as [B2 T2]; auto.
             { rewrite <- app_assoc. reflexivity. }
             { intros x Hx Hxl. apply (Htk x Hx). rewrite map_app. apply in_or_app; auto. }
             split.
             ++ rewrite B2. f_equal. rewrite map_app, nodup_app_last, filter_app.
                assert (E : filter (notin (s :: map fst R)) (filter (notin (map fst lr')) (nodup Nat.eq_dec (map fst ld))) = []).
                { rewrite filter_filter. clear B2.
                  match goal with |- ?f = [] => destruct f as [|y ys] eqn:Ey end; [reflexivity|exfalso].
                  assert (Hy : In y (y :: ys)) by (left; reflexivity). rewrite <- Ey in Hy.
                  apply filter_In in Hy as [Hy Hy']. rewrite andb_true_iff, !notin_true in Hy'. destruct Hy' as [Hy1 Hy2].
                  apply nodup_In in Hy. cbn in Hy2.
                  assert (Hyd : y = d \/ gbelow d y) by (eapply (proj1 lexp_below); eauto).
                  apply HRk in Hin as [Hin|[->|Hin]].
                  - apply Hy1. destruct Hyd as [->|Hyd]; [assumption|].
                    apply below_greach in Hyd.
                    exact (closed_reach (fun x => In x (map fst lr')) (lexp_all_closed _ _ _ _ Hlr') d y Hin Hyd).
                  - apply Hnl. apply below_edge; assumption.
                  - destruct (C4 d Hin) as [Hc|Hb].
                    + apply Hy2. right. destruct Hyd as [->|Hyd]; auto.
                    + apply Hnl. exists d. split; [assumption|]. apply below_greach; assumption. }
                rewrite E. reflexivity.
             ++ intros x Hx. destruct (T2 x Hx) as [Hx'|[Hx' Hx'']]; [auto|]. right.
                split; [rewrite map_app; apply in_or_app; auto|assumption].
        * destruct b; [discriminate|].
          destruct (inline_rules (inline_process n) s k false (deps_of M S (fun p : path => p) rs) rs _) as [res r'] eqn:Ei.
          inversion Hrun; subst res rs'.
          destruct (IHr k false _ (push M S (OImport s u c) stA) stB r' lr lp Hlead Herr eq_refl) as [B2 T2]; auto.
          split; [|exact T2]. rewrite B2. cbn [push i_out]. rewrite bodies_app. cbn. rewrite app_nil_r. reflexivity.
      + destruct (inline_rules (inline_process n) s k b ds rs _) as [res r'] eqn:Ei.
        inversion Hrun; subst res rs'. cbn in Hlead, Herr, Hds.
        destruct (IHr k b ds (push M S (OLayer s ns) stA) stB r' lr lp Hlead Herr Hds) as [B2 T2]; auto.
        split; [|exact T2]. rewrite B2. cbn [push i_out]. rewrite bodies_app. cbn. rewrite app_nil_r. reflexivity.
      + destruct (inline_rules (inline_process n) s k b ds rs _) as [res r'] eqn:Ei.
        inversion Hrun; subst res rs'. cbn in Hlead, Herr, Hds.
        apply (IHr k b ds stA stB r' lr lp Hlead Herr Hds); auto.
      + inversion Hrun; subst. cbn in Hlead. cbn in Hlr. rewrite deps_no_imports in Hlr by assumption.
        inversion Hlr; subst. cbn. rewrite app_nil_r. split; [reflexivity|]. intros x Hx; auto. }
  destruct (inline_rules (inline_process n) s 0 false (deps s) (rules s) st1) as [res rs'] eqn:E3.
  destruct res as [st3| |]; try discriminate. inversion H; subst; clear H.
  destruct (L _ _ _ _ _ _ _ l0 [] (W_lead s) (W_err s) (W_deps s) eq_refl Hl0 (incl_refl _) E3) as [B T].
  { intros x [<-|Hx] Hxl; [exact (Hac Hxl)|]. apply (Ht x Hx). rewrite map_app. apply in_or_app; auto. }
  cbn [i_out i_taken]. split.
  - rewrite bodies_app, B. cbn [st1 i_out]. rewrite <- app_assoc. f_equal.
    rewrite map_app, nodup_app_last. cbn [map fst]. rewrite filter_app, filter_filter.
    assert (Es : notin (map fst R) s = true) by (apply notin_true; assumption).
    assert (E1 : nodup Nat.eq_dec [s] = [s]) by reflexivity. rewrite E1. cbn [filter]. rewrite Es.
    change (bodies [OBody s (if mem s (i_wrapped st3) then no_conds M S m_empty else conds_of s) rs']) with [s].
    f_equal. apply filter_ext. intros x. apply eq_true_iff_eq. rewrite andb_true_iff, !notin_true. cbn. tauto.
  - intros x Hx. destruct (T x Hx) as [[<-|Hx']|[Hx' Hx'']]; auto.
    right. split; [rewrite map_app; apply in_or_app; auto|assumption].
Qed.
End InlineLast.

Lemma browser_order_abstract : forall n st m ist X,
    (forall s, imports_lead (rules s)) -> (forall s, no_err (rules s)) ->
    (forall s, deps s = deps_of M S (fun p => p) (rules s)) ->
    (forall p x s, gshared p -> gbelow p x -> greach css deps entry s -> In x (imps s) -> s = p \/ gbelow p s) ->
    lexp entry (entry, 0) X ->
    order entry css deps n = Some st ->
    inline M S m_empty entry css deps rules conds_of (o_parent st) m = IOk ist ->
    bodies (i_out ist) = nodup Nat.eq_dec (map fst X).
Proof.
  intros n st m ist X WL WE WD HP HX HO HI. unfold inline in HI.
  pose proof (lexp_last _ _ _ HX) as (l & -> & Hl).
  assert (Hac : forall s, greach css deps entry s -> exists lab l, lexp s lab l).
  { intros s Hs. assert (Hin : In s (map fst (l ++ [(entry, (entry, 0))]))).
    { apply (closed_reach (fun x => In x (map fst (l ++ [(entry, (entry, 0))]))) (lexp_closed _ _ _ HX) entry s); [|assumption].
      rewrite map_app. apply in_or_app; right; left; reflexivity. }
    destruct (proj1 lexp_sub _ _ _ HX s Hin) as (lx & A & _). destruct (A (0, 0)) as (l' & H' & _). eauto. }
  pose proof (order_browser Hac HP n st _ l HO HX) as Hlast.
  destruct (inline_last (o_parent st) WL WE WD m entry (entry, 0) _ [] _ ist HI HX) as [B _].
  - constructor; cbn; auto; try tauto. intros x Hx. rewrite app_nil_r in *. auto.
  - intros x [].
  - rewrite B. cbn. rewrite (filter_ext _ (fun _ => true)).
    + clear. induction (nodup Nat.eq_dec (map fst (l ++ [(entry, (entry, 0))]))) as [|x r IH]; cbn; congruence.
    + intros x. apply notin_true. intros [].
Qed.
End Browser.
