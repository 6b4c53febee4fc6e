(** * Proofs about ordering and inlining, on an abstract graph *)
From Coq Require Import List Bool Arith String Lia.
From Verif Require Import BundleModel BundleSpec.
Import ListNotations.

Section Order.
Context {M S : Type}.
Notation srule := (srule M S).
Notation conds := (conds M S).
Notation item := (item M S).
Notation istate := (istate M S).
Notation ires := (ires M S).
Variable m_empty : M.
Variable entry : nat.
Variable css : nat -> list nat.
Variable deps : nat -> list dep.
Variable rules : nat -> list srule.
Variable conds_of : nat -> conds.

Notation order_css := (order_css).
Notation order_process := (order_process css deps).
Notation order := (order entry css deps).

Lemma mem_in : forall x l, mem x l = true <-> In x l.
Proof.
  intros x l. unfold mem. rewrite existsb_exists. split.
  - intros (y & Hy & E). apply Nat.eqb_eq in E. subst. assumption.
  - intros H. exists x. split; [assumption|apply Nat.eqb_refl].
Qed.
Lemma mem_not : forall x l, mem x l = false <-> ~ In x l.
Proof. intros x l. rewrite <- mem_in. destruct (mem x l); split; congruence. Qed.

Fixpoint dep_files (l : list dep) : list nat :=
  match l with [] => [] | DFile d :: r => d :: dep_files r | DExternal _ :: r => dep_files r end.
Definition edges (s : nat) : list nat := css s ++ dep_files (deps s).
Definition edge (s d : nat) : Prop := In d (edges s).
Definition before (d x : nat) (l : list nat) : Prop := exists l1 l2, l = l1 ++ d :: l2 /\ In x l2.
Lemma before_app : forall d x l a, before d x l -> before d x (a ++ l).
Proof. intros d x l a (l1 & l2 & -> & H). exists (a ++ l1), l2. rewrite app_assoc. auto. Qed.

Definition validp (st : ostate) (d : nat) : Prop :=
  exists x k, o_parent st d = (x, k) /\ In x (o_visited st) /\ nth_error (edges x) k = Some d
         /\ (k < List.length (css x) -> before d x (o_visited st)).
Record ext (P : nat -> Prop) (st st' : ostate) : Prop := {
  e_new : exists new, o_visited st' = new ++ o_visited st
        /\ (forall x d, In x new -> edge x d -> In d (o_visited st'))
        /\ (forall d, In d new -> P d \/ validp st' d);
  e_nodup : NoDup (o_visited st) -> NoDup (o_visited st');
  e_parent : forall d, o_parent st' d = o_parent st d \/ validp st' d }.
Definition none (d : nat) : Prop := False.

Lemma valid_mono : forall st st' new d, o_visited st' = new ++ o_visited st -> o_parent st' d = o_parent st d ->
    validp st d -> validp st' d.
Proof.
  intros st st' new d Hv Hp (x & k & H1 & H2 & H3 & H4). exists x, k. rewrite Hp, Hv.
  repeat split; auto. - apply in_or_app; auto. - intros Hk. apply before_app; auto.
Qed.
Lemma ext_refl : forall P st, ext P st st.
Proof. intros P st; constructor; auto. exists []. repeat split; cbn; tauto. Qed.
Lemma ext_trans : forall P st1 st2 st3, ext P st1 st2 -> ext P st2 st3 -> ext P st1 st3.
Proof.
  intros P st1 st2 st3 [(n1 & V1 & C1 & D1) N1 E1] [(n2 & V2 & C2 & D2) N2 E2]. constructor; auto.
  - exists (n2 ++ n1). rewrite V2, V1, app_assoc. split; [reflexivity|]. split.
    + intros x d Hx Hd. apply in_app_or in Hx as [Hx|Hx].
      * rewrite <- app_assoc, <- V1, <- V2. eauto.
      * rewrite <- app_assoc, <- V1. apply in_or_app; right. eauto.
    + intros d Hd. apply in_app_or in Hd as [Hd|Hd]; [auto|].
      destruct (D1 d Hd) as [H|H]; [auto|]. destruct (E2 d) as [E|E]; [|auto].
      right. eapply valid_mono; eauto.
  - intros d. destruct (E2 d) as [E|E]; [|auto]. destruct (E1 d) as [E'|E']; [left; congruence|].
    right. eapply valid_mono; eauto.
Qed.

Lemma set_parent_visited : forall d s k st, o_visited (set_parent d s k st) = o_visited st.
Proof. reflexivity. Qed.

(** an edge followed from a visited sheet: the parent is set, then the target is processed *)
Lemma follow : forall P s k d st st', In s (o_visited st) -> nth_error (edges s) k = Some d ->
    (k < List.length (css s) -> ~ In d (o_visited st)) ->
    ext (fun x => x = d) (set_parent d s k st) st' -> In d (o_visited st') ->
    ext P st st'.
Proof.
  intros P s k d st st' Hs Hk Hc [(new & V & C & D) N E] Hd.
  assert (Hvd : o_parent st' d = (s, k) -> validp st' d).
  { intros Hp. exists s, k. rewrite V. split; [assumption|]. split; [apply in_or_app; auto|]. split; [assumption|].
    intros Hlt. specialize (Hc Hlt). rewrite V in Hd. apply in_app_or in Hd as [Hd|Hd]; [|contradiction].
    apply in_split in Hd as (l1 & l2 & ->). exists l1, (l2 ++ o_visited st). split.
    - cbn [o_visited set_parent] in *. rewrite <- app_assoc. reflexivity.
    - apply in_or_app; auto. }
  assert (Hval : validp st' d).
  { destruct (E d) as [H|H]; [|assumption]. apply Hvd. rewrite H. cbn. rewrite Nat.eqb_refl. reflexivity. }
  constructor; auto.
  - exists new. split; [assumption|]. split; [assumption|]. intros x Hx.
    destruct (D x Hx) as [->|H]; auto.
  - intros x. destruct (Nat.eq_dec x d) as [->|Hne]; [auto|].
    destruct (E x) as [H|H]; [|auto]. left. rewrite H. cbn. destruct (Nat.eqb_spec x d); congruence.
Qed.

Definition rec_ok (rec : nat -> ostate -> option ostate) : Prop :=
  forall d st st', rec d st = Some st' -> ext (fun x => x = d) st st' /\ In d (o_visited st').
Lemma ext_in : forall P st st' x, ext P st st' -> In x (o_visited st) -> In x (o_visited st').
Proof. intros P st st' x [(new & V & _) _ _] H. rewrite V. apply in_or_app; auto. Qed.

Lemma order_css_ok : forall rec s P, rec_ok rec -> forall l k st st',
    In s (o_visited st) -> (forall i, nth_error l i = nth_error (css s) (k + i)) ->
    order_css rec s k l st = Some st' ->
    ext P st st' /\ (forall d, In d l -> In d (o_visited st')).
Proof.
  intros rec s P HR. induction l as [|d l IH]; intros k st st' Hs Hl H; cbn in H.
  - inversion H; subst. split; [apply ext_refl|intros ? []].
  - assert (Hkd : nth_error (css s) k = Some d) by (specialize (Hl 0); rewrite Nat.add_0_r in Hl; symmetry; exact Hl).
    assert (Hl' : forall i, nth_error l i = nth_error (css s) (k + 1 + i)).
    { intros i. specialize (Hl (Datatypes.S i)). cbn in Hl. rewrite Hl. f_equal. lia. }
    destruct (mem d (o_visited st)) eqn:Em.
    + apply mem_in in Em. destruct (IH _ _ _ Hs Hl' H) as [H1 H2]. split; [assumption|].
      intros x [<-|Hx]; [eapply ext_in; eauto|auto].
    + apply mem_not in Em. destruct (rec d (set_parent d s k st)) as [st1|] eqn:Er; [|discriminate].
      destruct (HR _ _ _ Er) as [H1 H2].
      assert (Hk : nth_error (edges s) k = Some d).
      { unfold edges. rewrite nth_error_app1; [assumption|]. apply nth_error_Some. congruence. }
      pose proof (follow P s k d st st1 Hs Hk (fun _ => Em) H1 H2) as Hf.
      destruct (IH _ _ _ (ext_in _ _ _ _ Hf Hs) Hl' H) as [H3 H4].
      split; [eapply ext_trans; eauto|]. intros x [<-|Hx]; [eapply ext_in; eauto|auto].
Qed.
Lemma order_deps_ok : forall rec s P, rec_ok rec -> forall l k st st',
    In s (o_visited st) -> (forall i, nth_error (dep_files l) i = nth_error (edges s) (k + i)) ->
    List.length (css s) <= k ->
    order_deps rec s k l st = Some st' ->
    ext P st st' /\ (forall d, In d (dep_files l) -> In d (o_visited st')).
Proof.
  intros rec s P HR. induction l as [|[d|u] l IH]; intros k st st' Hs Hl Hk H; cbn in H.
  - inversion H; subst. split; [apply ext_refl|intros ? []].
  - cbn in Hl. assert (Hkd : nth_error (edges s) k = Some d)
      by (specialize (Hl 0); rewrite Nat.add_0_r in Hl; symmetry; exact Hl).
    assert (Hl' : forall i, nth_error (dep_files l) i = nth_error (edges s) (k + 1 + i)).
    { intros i. specialize (Hl (Datatypes.S i)). cbn in Hl. rewrite Hl. f_equal. lia. }
    destruct (rec d (set_parent d s k st)) as [st1|] eqn:Er; [|discriminate].
    destruct (HR _ _ _ Er) as [H1 H2].
    pose proof (follow P s k d st st1 Hs Hkd ltac:(lia) H1 H2) as Hf.
    destruct (IH (k + 1) _ _ (ext_in _ _ _ _ Hf Hs) Hl' ltac:(lia) H) as [H3 H4].
    split; [eapply ext_trans; eauto|]. intros x [<-|Hx]; [eapply ext_in; eauto|auto].
  - apply (IH k st st'); auto.
Qed.

Lemma order_process_ok : forall n, rec_ok (order_process n).
Proof.
  induction n as [|n IH]; intros s st st' H; [discriminate|]. cbn [BundleModel.order_process] in H.
  destruct (mem s (o_visited st)) eqn:Em.
  - inversion H; subst. split; [apply ext_refl|apply mem_in; assumption].
  - apply mem_not in Em.
    set (st1 := OState (o_parent st) (s :: o_visited st)) in *.
    assert (Hs1 : In s (o_visited st1)) by (left; reflexivity).
    destruct (order_css _ s 0 (css s) st1) as [st2|] eqn:E2; [|discriminate].
    destruct (order_css_ok _ s (fun x => x = s) IH (css s) 0 _ _ Hs1 (fun i => eq_refl) E2) as [X2 C2].
    pose proof (ext_in _ _ _ _ X2 Hs1) as Hs2.
    destruct (order_deps_ok _ s (fun x => x = s) IH (deps s) (List.length (css s)) st2 st' Hs2) as [X3 C3]; auto.
    { intros i. unfold edges. rewrite nth_error_app2 by lia. f_equal. lia. }
    pose proof (ext_trans _ _ _ _ X2 X3) as X. destruct X as [(new & V & C & D) N E].
    split; [|eapply ext_in; eauto]. constructor.
    + exists (new ++ [s]). cbn [o_visited st1] in V. rewrite <- app_assoc. split; [exact V|]. split.
      * intros x d Hx Hd. apply in_app_or in Hx as [Hx|[<-|[]]]; [eauto|].
        unfold edge, edges in Hd. apply in_app_or in Hd as [Hd|Hd]; [eapply ext_in; eauto|auto].
      * intros d Hd. apply in_app_or in Hd as [Hd|[<-|[]]]; [auto|left; reflexivity].
    + intros Hn. apply N. constructor; assumption.
    + exact E.
Qed.

(** enough fuel *)
Section Fuel.
Variable universe : list nat.
Hypothesis closed : forall s d, In s universe -> edge s d -> In d universe.
Definition left_in (vis : list nat) : nat := List.length (filter (fun x => negb (mem x vis)) universe).
Lemma left_mono : forall v v', (forall x, In x v -> In x v') -> left_in v' <= left_in v.
Proof.
  intros v v' H. unfold left_in. clear closed. induction universe as [|x u IH]; [reflexivity|]. cbn [filter].
  destruct (mem x v) eqn:E.
  - assert (mem x v' = true) as -> by (apply mem_in, H, mem_in, E). exact IH.
  - cbn [negb]. destruct (mem x v'); cbn [negb List.length]; lia.
Qed.
Lemma left_cons : forall v s, In s universe -> ~ In s v -> left_in (s :: v) < left_in v.
Proof.
  intros v s Hs Hn. unfold left_in. clear closed. induction universe as [|x u IH]; [destruct Hs|]. cbn [filter].
  assert (Hm : left_in (s :: v) <= left_in v) by (apply left_mono; intros y Hy; right; assumption).
  destruct (Nat.eq_dec x s) as [->|Hne].
  - assert (mem s (s :: v) = true) as -> by (apply mem_in; left; reflexivity).
    assert (mem s v = false) as -> by (apply mem_not; assumption). cbn [negb List.length].
    assert (List.length (filter (fun x => negb (mem x (s :: v))) u) <= List.length (filter (fun x => negb (mem x v)) u)).
    { clear. induction u as [|y u IH]; [reflexivity|]. cbn [filter].
      destruct (mem y v) eqn:E.
      - assert (mem y (s :: v) = true) as -> by (apply mem_in; right; apply mem_in; assumption). exact IH.
      - cbn [negb]. destruct (mem y (s :: v)); cbn [negb List.length]; lia. }
    lia.
  - destruct Hs as [Hs|Hs]; [congruence|]. specialize (IH Hs).
    assert (mem x (s :: v) = mem x v) as ->.
    { cbn. destruct (Nat.eqb_spec x s); [congruence|reflexivity]. }
    destruct (mem x v); cbn [negb List.length]; [exact IH|lia].
Qed.
Lemma order_fuel : forall n s st, In s universe -> left_in (o_visited st) < n -> order_process n s st <> None.
Proof.
  induction n as [|n IH]; intros s st Hs Hn; [lia|]. cbn [BundleModel.order_process].
  destruct (mem s (o_visited st)) eqn:Em; [discriminate|]. apply mem_not in Em.
  set (st1 := OState (o_parent st) (s :: o_visited st)).
  assert (Hl1 : left_in (o_visited st1) < n).
  { pose proof (left_cons (o_visited st) s Hs Em). cbn [st1 o_visited]. lia. }
  assert (HC : forall l k st, (forall d, In d l -> In d universe) -> left_in (o_visited st) < n ->
             exists st', order_css (order_process n) s k l st = Some st' /\ left_in (o_visited st') < n).
  { induction l as [|d l IHl]; intros k st0 Hl H0; cbn; [eauto|].
    destruct (mem d (o_visited st0)); [apply IHl; auto; intros; apply Hl; right; assumption|].
    destruct (order_process n d (set_parent d s k st0)) as [st'|] eqn:E.
    - apply IHl; [intros; apply Hl; right; assumption|].
      destruct (order_process_ok _ _ _ _ E) as [X _]. pose proof (left_mono _ _ (fun x => ext_in _ _ _ x X)).
      cbn [o_visited set_parent] in *. lia.
    - exfalso. apply (IH d (set_parent d s k st0)); auto. apply Hl; left; reflexivity. }
  assert (HD : forall l k st, (forall d, In d (dep_files l) -> In d universe) -> left_in (o_visited st) < n ->
             exists st', order_deps (order_process n) s k l st = Some st').
  { induction l as [|[d|u] l IHl]; intros k st0 Hl H0; cbn; [eauto| |apply IHl; auto].
    destruct (order_process n d (set_parent d s k st0)) as [st'|] eqn:E.
    - apply IHl; [intros; apply Hl; right; assumption|].
      destruct (order_process_ok _ _ _ _ E) as [X _]. pose proof (left_mono _ _ (fun x => ext_in _ _ _ x X)).
      cbn [o_visited set_parent] in *. lia.
    - exfalso. apply (IH d (set_parent d s k st0)); auto. apply Hl; left; reflexivity. }
  destruct (HC (css s) 0 st1) as (st2 & -> & H2); auto.
  { intros d Hd. apply (closed s); [assumption|]. apply in_or_app; auto. }
  destruct (HD (deps s) (List.length (css s)) st2) as (st3 & ->); auto.
  { intros d Hd. apply (closed s); [assumption|]. apply in_or_app; auto. }
  discriminate.
Qed.
End Fuel.

(** What [order] establishes *)
Inductive greach : nat -> nat -> Prop :=
| GR_refl s : greach s s
| GR_step s m d : greach s m -> edge m d -> greach s d.
Lemma order_spec : forall n st, order n = Some st ->
    NoDup (o_visited st)
    /\ (forall d, greach entry d -> In d (o_visited st))
    /\ (forall d, In d (o_visited st) -> d <> entry -> validp st d)
    /\ (o_parent st entry = (entry, 0) \/ validp st entry)
    /\ (exists l, o_visited st = l ++ [entry]).
Proof.
  intros n st H. unfold order in H. destruct (order_process_ok _ _ _ _ H) as [[(new & V & C & D) N E] He].
  cbn [o_visited o_parent] in *. rewrite app_nil_r in V. subst new. split; [|split; [|split; [|split]]].
  - apply N. constructor.
  - intros d Hd. remember entry as e in Hd. induction Hd; subst; [assumption|].
    eauto.
  - intros d Hd Hne. destruct (D d Hd); [contradiction|assumption].
  - apply E.
  - destruct n; [discriminate|]. cbn [BundleModel.order_process] in H. cbn [o_visited mem existsb] in H.
    destruct (order_css _ _ _ _ _) as [st2|] eqn:E2; [|discriminate].
    pose proof (order_process_ok n) as HR.
    set (st1 := OState (o_parent (OState (fun _ : nat => (entry, 0)) [])) [entry]) in *.
    assert (Hs1 : In entry (o_visited st1)) by (left; reflexivity).
    destruct (order_css_ok _ entry none HR (css entry) 0 _ _ Hs1 (fun i => eq_refl) E2) as [X2 _].
    pose proof (ext_in _ _ _ _ X2 Hs1) as Hs2.
    destruct (order_deps_ok _ entry none HR (deps entry) (List.length (css entry)) st2 st Hs2) as [X3 _]; auto.
    { intros i. unfold edges. rewrite nth_error_app2 by lia. f_equal. lia. }
    destruct (ext_trans _ _ _ _ X2 X3) as [(l & Hl & _) _ _]. exists l. exact Hl.
Qed.
Lemma order_reached : forall n st d, order n = Some st -> In d (o_visited st) -> greach entry d.
Proof.
  intros n st d H Hd. destruct (order_spec _ _ H) as (Hn & _ & Hv & _ & (l & Hl)).
  (* every visited sheet but the entry was reached through an edge from an earlier one *)
  revert n st d H Hd Hn Hv l Hl.
  assert (G : forall n, forall s st st', order_process n s st = Some st' ->
             forall d, In d (o_visited st') -> In d (o_visited st) \/ greach s d).
  { induction n as [|n IH]; intros s st st' H d Hd; [discriminate|]. cbn [BundleModel.order_process] in H.
    destruct (mem s (o_visited st)); [inversion H; subst; auto|].
    assert (HC : forall l k st st', (forall x, In x l -> edge s x) -> order_css (order_process n) s k l st = Some st' ->
               forall d, In d (o_visited st') -> In d (o_visited st) \/ greach s d).
    { induction l as [|x l IHl]; intros k st0 st0' Hl H0 y Hy; cbn in H0; [inversion H0; subst; auto|].
      destruct (mem x (o_visited st0)); [eapply IHl; eauto; intros; apply Hl; right; assumption|].
      destruct (order_process n x _) as [st1|] eqn:E; [|discriminate].
      destruct (IHl _ _ _ (fun z Hz => Hl z (or_intror Hz)) H0 y Hy) as [Hy'|Hy']; [|auto].
      destruct (IH _ _ _ E y Hy') as [Hy''|Hy'']; [auto|]. right.
      clear - Hy'' Hl. specialize (Hl x (or_introl eq_refl)). induction Hy''; [econstructor; [constructor|assumption]|econstructor; eauto]. }
    assert (HD : forall l k st st', (forall x, In x (dep_files l) -> edge s x) -> order_deps (order_process n) s k l st = Some st' ->
               forall d, In d (o_visited st') -> In d (o_visited st) \/ greach s d).
    { induction l as [|[x|u] l IHl]; intros k st0 st0' Hl H0 y Hy; cbn in H0; [inversion H0; subst; auto| |eapply IHl; eauto].
      destruct (order_process n x _) as [st1|] eqn:E; [|discriminate].
      destruct (IHl _ _ _ (fun z Hz => Hl z (or_intror Hz)) H0 y Hy) as [Hy'|Hy']; [|auto].
      destruct (IH _ _ _ E y Hy') as [Hy''|Hy'']; [auto|]. right.
      clear - Hy'' Hl. specialize (Hl x (or_introl eq_refl)). induction Hy''; [econstructor; [constructor|assumption]|econstructor; eauto]. }
    destruct (order_css _ s 0 (css s) _) as [st2|] eqn:E2; [|discriminate].
    destruct (HD _ _ _ _ (fun x Hx => in_or_app _ _ _ (or_intror Hx)) H d Hd) as [Hd'|Hd']; [|auto].
    destruct (HC _ _ _ _ (fun x Hx => in_or_app _ _ _ (or_introl Hx)) E2 d Hd') as [[<-|Hd'']|Hd'']; auto.
    right; constructor. }
  intros n st d H Hd _ _ _ _. destruct (G _ _ _ _ H d Hd) as [[]|Hg]; exact Hg.
Qed.
End Order.
