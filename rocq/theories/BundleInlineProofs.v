(** * Proofs about inlining: every processed file is emitted once; termination; conditions *)
From Coq Require Import List Bool Arith String Lia.
From Verif Require Import BundleModel BundleSpec BundleOrderProofs.
Import ListNotations.

(** no import failed to resolve *)
Fixpoint no_err {M S} (rs : list (srule M S)) : Prop :=
  match rs with [] => True | SImport TError _ :: _ => False | _ :: r => no_err r end.

Section Inline.
Context {M S : Type}.
Notation srule := (srule M S).
Notation conds := (conds M S).
Notation item := (item M S).
Notation istate := (istate M S).
Notation ires := (ires M S).
Variable m_empty : M.
Variable entry : nat.
Variable css : nat -> list nat.
Variable deps : nat -> list dep.
Variable rules : nat -> list srule.
Variable conds_of : nat -> conds.
Variable parent : nat -> nat * nat.

Notation edges := (edges css deps).
Notation inline_css := (inline_css M S parent).
Notation inline_rules := (inline_rules M S parent).
Notation inline_process := (inline_process M S m_empty css deps rules conds_of parent).
Notation deps_of := (deps_of M S (fun p => p)).

Definition from (p : nat) (out : list item) : list srule := rules_from p (fun i => Some i) out.
Definition live (r : srule) : bool := match r with SIgnored => false | _ => true end.
Lemma from_app : forall p a b, from p (a ++ b) = from p a ++ from p b.
Proof. induction a as [|x a IH]; intros b; [reflexivity|]. unfold from in *. cbn. rewrite IH, app_assoc. reflexivity. Qed.

Lemma is_parent_true : forall d s k, is_parent parent d s k = true <-> parent d = (s, k).
Proof.
  intros d s k. unfold is_parent. destruct (parent d) as [a b]; cbn.
  rewrite andb_true_iff, !Nat.eqb_eq. split; [intros []|intros H; inversion H]; subst; auto.
Qed.

Section Once.
Hypothesis W_lead : forall s, imports_lead (rules s).
Hypothesis W_err : forall s, no_err (rules s).
Hypothesis W_deps : forall s, deps s = deps_of (rules s).

Definition fresh (st st' : istate) (p : nat) : bool := mem p (i_taken st') && negb (mem p (i_taken st)).
Record grow (X : nat -> Prop) (st st' : istate) : Prop := {
  g_taken : forall p, In p (i_taken st) -> In p (i_taken st');
  g_from : forall p, ~ X p -> from p (i_out st') = from p (i_out st) ++ if fresh st st' p then own_rules (rules p) else [];
  g_closed : forall s k d, In s (i_taken st') -> ~ In s (i_taken st) -> nth_error (edges s) k = Some d ->
                           parent d = (s, k) -> In d (i_taken st') }.
Lemma fresh_same : forall st st', (forall p, In p (i_taken st) <-> In p (i_taken st')) -> forall p, fresh st st' p = false.
Proof.
  intros st st' H p. unfold fresh. destruct (mem p (i_taken st)) eqn:E; [apply andb_false_r|].
  apply mem_not in E. assert (mem p (i_taken st') = false) as -> by (apply mem_not; rewrite <- H; assumption). reflexivity.
Qed.
Lemma grow_refl : forall X st, grow X st st.
Proof.
  intros X st; constructor; auto; [|tauto]. intros p _. rewrite fresh_same by tauto. rewrite app_nil_r. reflexivity.
Qed.
Lemma grow_trans : forall X st1 st2 st3, grow X st1 st2 -> grow X st2 st3 -> grow X st1 st3.
Proof.
  intros X st1 st2 st3 [T1 F1 C1] [T2 F2 C2]. constructor; auto.
  - intros p Hp. rewrite F2, F1, <- app_assoc by assumption. f_equal. unfold fresh.
    destruct (mem p (i_taken st1)) eqn:E1; cbn [negb].
    + apply mem_in, T1, mem_in in E1. rewrite E1. cbn. rewrite !andb_false_r. reflexivity.
    + rewrite !andb_true_r. destruct (mem p (i_taken st2)) eqn:E2; cbn [negb].
      * apply mem_in, T2, mem_in in E2. rewrite E2, app_nil_r. reflexivity.
      * rewrite andb_true_r. reflexivity.
  - intros s k d H3 H1 Hk Hp. destruct (in_dec Nat.eq_dec s (i_taken st2)) as [H2|H2]; eauto.
Qed.
Lemma grow_weaken : forall (X Y : nat -> Prop) st st', (forall p, X p -> Y p) -> grow X st st' -> grow Y st st'.
Proof. intros X Y st st' H [T F C]. constructor; auto. Qed.
(** a step that only appends output of [s] *)
Lemma grow_push : forall (X : nat -> Prop) st it, (forall p, ~ X p -> from p [it] = []) ->
    grow X st (push M S it st).
Proof.
  intros X st it H. constructor; cbn [push i_taken i_out]; auto; [|tauto].
  intros p Hp. rewrite from_app, (H p Hp), fresh_same by (cbn; tauto). reflexivity.
Qed.

Definition rec_ok (rec : nat -> istate -> ires) : Prop :=
  forall d st st', rec d st = IOk st' -> grow (fun _ => False) st st' /\ In d (i_taken st').

Lemma inline_css_ok : forall rec s, rec_ok rec -> forall l k st st',
    inline_css rec s k l st = IOk st' ->
    grow (fun _ => False) st st'
    /\ (forall i d, nth_error l i = Some d -> parent d = (s, k + i) -> In d (i_taken st')).
Proof.
  intros rec s HR. induction l as [|d l IH]; intros k st st' H; cbn in H.
  - inversion H; subst. split; [apply grow_refl|]. intros [|i]; discriminate.
  - destruct (is_parent parent d s k) eqn:Ep.
    + destruct (rec d st) as [st1| |] eqn:Er; try discriminate. destruct (HR _ _ _ Er) as [G1 D1].
      destruct (IH _ _ _ H) as [G2 D2]. split; [eapply grow_trans; eauto|].
      intros [|i] x Hx Hp; cbn in Hx.
      * inversion Hx; subst. apply G2, D1.
      * apply (D2 i x Hx). rewrite Hp. f_equal. lia.
    + destruct (IH _ _ _ H) as [G2 D2]. split; [assumption|].
      intros [|i] x Hx Hp; cbn in Hx.
      * inversion Hx; subst. rewrite Nat.add_0_r in Hp. apply is_parent_true in Hp. congruence.
      * apply (D2 i x Hx). rewrite Hp. f_equal. lia.
Qed.

Lemma own_no_imports : forall rs, no_imports rs -> own_rules rs = filter live rs.
Proof.
  induction rs as [|r rs IH]; intros H; [reflexivity|]. unfold own_rules in *. destruct r; cbn in *; try tauto; rewrite ?IH; auto.
Qed.
Lemma deps_no_imports : forall rs, no_imports rs -> deps_of rs = [].
Proof. induction rs as [|r rs IH]; intros H; [reflexivity|]. destruct r; cbn in *; try tauto; auto. Qed.

Lemma inline_rules_ok : forall rec s, rec_ok rec -> forall rs k b ds st st' rs',
    In s (i_taken st) -> imports_lead rs -> no_err rs -> ds = deps_of rs ->
    inline_rules rec s k b ds rs st = (IOk st', rs') ->
    grow (fun p => p = s) st st'
    /\ (exists hdr, from s (i_out st') = from s (i_out st) ++ hdr /\ hdr ++ filter live rs' = own_rules rs)
    /\ (forall i d, nth_error (dep_files ds) i = Some d -> parent d = (s, k + i) -> In d (i_taken st')).
Proof.
  intros rec s HR. induction rs as [|r rs IH]; intros k b ds st st' rs' Hs Hl He Hd H; cbn in H.
  - inversion H; subst. split; [apply grow_refl|]. split; [exists []; rewrite app_nil_r; auto|].
    intros [|i]; discriminate.
  - destruct r as [t c|ns| |id ts].
    + destruct t as [p|u|]; [| |destruct He]; cbn in Hl, He; cbn in Hd; subst ds.
      * (* a file *)
        destruct (is_parent parent p s k) eqn:Ep.
        -- destruct (rec p st) as [st1| |] eqn:Er; try discriminate. destruct (HR _ _ _ Er) as [G1 D1].
           destruct (inline_rules rec s (k + 1) true (deps_of rs) rs st1) as [res r'] eqn:Ei.
           inversion H; subst; clear H.
           destruct (IH _ _ _ _ _ _ (g_taken _ _ _ G1 s Hs) Hl He eq_refl Ei) as (G2 & (hdr & F2 & O2) & D2).
           split; [eapply grow_trans; [eapply grow_weaken; [|exact G1]; intros ? []|exact G2]|]. split.
           ++ exists hdr. split; [|exact O2]. rewrite F2. f_equal.
              rewrite (g_from _ _ _ G1 s) by tauto. unfold fresh.
              assert (mem s (i_taken st) = true) as -> by (apply mem_in; assumption).
              rewrite andb_false_r, app_nil_r. reflexivity.
           ++ intros [|i] x Hx Hp; cbn in Hx.
              ** inversion Hx; subst. apply G2, D1.
              ** apply (D2 i x Hx). rewrite Hp. f_equal. lia.
        -- destruct (inline_rules rec s (k + 1) b (deps_of rs) rs st) as [res r'] eqn:Ei.
           inversion H; subst; clear H.
           destruct (IH _ _ _ _ _ _ Hs Hl He eq_refl Ei) as (G2 & O2 & D2).
           split; [exact G2|]. split; [exact O2|].
           intros [|i] x Hx Hp; cbn in Hx.
           ++ inversion Hx; subst. rewrite Nat.add_0_r in Hp. apply is_parent_true in Hp. congruence.
           ++ apply (D2 i x Hx). rewrite Hp. f_equal. lia.
      * (* an external import *)
        destruct b; [discriminate|].
        destruct (inline_rules rec s k false (deps_of rs) rs (push M S (OImport s u c) st)) as [res r'] eqn:Ei.
        inversion H; subst; clear H.
        destruct (IH _ _ _ (push M S (OImport s u c) st) _ _ Hs Hl He eq_refl Ei) as (G2 & (hdr & F2 & O2) & D2).
        split; [|split].
        -- eapply grow_trans; [|exact G2]. apply grow_push. intros q Hq. unfold from. cbn.
           destruct (Nat.eqb_spec s q); [congruence|reflexivity].
        -- exists (SImport (TExternal u) c :: hdr). split; [|cbn; rewrite O2; reflexivity].
           rewrite F2. cbn [push i_out]. rewrite from_app, <- app_assoc. f_equal. unfold from; cbn. rewrite Nat.eqb_refl. reflexivity.
        -- exact D2.
    + (* a layer statement *)
      destruct (inline_rules rec s k b ds rs (push M S (OLayer s ns) st)) as [res r'] eqn:Ei.
      inversion H; subst; clear H. cbn in *.
      destruct (IH _ _ _ (push M S (OLayer s ns) st) _ _ Hs Hl He eq_refl Ei) as (G2 & (hdr & F2 & O2) & D2).
      split; [|split].
      * eapply grow_trans; [|exact G2]. apply grow_push. intros q Hq. unfold from. cbn.
        destruct (Nat.eqb_spec s q); [congruence|reflexivity].
      * exists (SLayer ns :: hdr). split; [|cbn; rewrite O2; reflexivity].
        rewrite F2. cbn [push i_out]. rewrite from_app, <- app_assoc. f_equal. unfold from; cbn. rewrite Nat.eqb_refl. reflexivity.
      * exact D2.
    + destruct (inline_rules rec s k b ds rs st) as [res r'] eqn:Ei.
      inversion H; subst; clear H. cbn in *.
      destruct (IH _ _ _ _ _ _ Hs Hl He eq_refl Ei) as (G2 & O2 & D2). auto.
    + inversion H; subst; clear H. split; [apply grow_refl|]. cbn in Hl. split.
      * exists []. rewrite app_nil_r. split; [reflexivity|]. unfold own_rules. cbn. f_equal.
        symmetry. apply own_no_imports. assumption.
      * cbn. rewrite (deps_no_imports rs Hl). intros [|i]; discriminate.
Qed.

Lemma inline_process_ok : forall n, rec_ok (inline_process n).
Proof.
  induction n as [|n IH]; intros s st st' H; [discriminate|]. cbn [BundleModel.inline_process] in H.
  set (rs := if mem s (i_taken st) then [] else rules s) in *.
  set (st1 := IState (s :: i_taken st) (i_wrapped st) (i_out st)) in *.
  destruct (inline_css (inline_process n) s 0 (css s) st1) as [st2| |] eqn:E2; try discriminate.
  destruct (inline_css_ok _ s IH _ _ _ _ E2) as [G2 D2].
  destruct (inline_rules (inline_process n) s _ false (deps s) rs st2) as [res rs'] eqn:E3.
  destruct res as [st3| |]; try discriminate. inversion H; subst; clear H.
  assert (Hs1 : In s (i_taken st1)) by (left; reflexivity).
  assert (Hs2 : In s (i_taken st2)) by (apply G2; assumption).
  assert (R3 : grow (fun p => p = s) st2 st3
    /\ (exists hdr, from s (i_out st3) = from s (i_out st2) ++ hdr /\ hdr ++ filter live rs' = own_rules rs)
    /\ (~ In s (i_taken st) -> forall i d, nth_error (dep_files (deps s)) i = Some d -> parent d = (s, List.length (css s) + i) -> In d (i_taken st3))).
  { unfold rs in *. destruct (mem s (i_taken st)) eqn:Em.
    - cbn in E3. inversion E3; subst. split; [apply grow_refl|].
      split; [exists []; rewrite app_nil_r; auto|]. intros Hn. apply mem_in in Em. contradiction.
    - destruct (inline_rules_ok _ s IH _ _ _ _ _ _ _ Hs2 (W_lead s) (W_err s) (W_deps s) E3) as (A & B & C). auto. }
  destruct R3 as (G3 & (hdr & F3 & O3) & D3).
  pose proof (grow_trans _ _ _ _ (grow_weaken (fun _ => False) (fun p => p = s) _ _ (fun p (H : False) => False_ind _ H) G2) G3) as [T F C].
  split; [|apply T; assumption].
  constructor; cbn [i_taken i_out].
  - intros p Hp. apply T. right; assumption.
  - intros p _. rewrite from_app. destruct (Nat.eq_dec p s) as [->|Hne].
    + assert (Ef : from s [OBody s (if mem s (i_wrapped st3) then no_conds M S m_empty else conds_of s) rs'] = filter live rs').
      { unfold from; cbn. rewrite Nat.eqb_refl, app_nil_r. reflexivity. }
      rewrite Ef, F3, <- app_assoc, O3.
      assert (Ef2 : from s (i_out st2) = from s (i_out st)).
      { rewrite (g_from _ _ _ G2 s) by tauto. unfold fresh.
        assert (mem s (i_taken st1) = true) as -> by (apply mem_in; assumption).
        rewrite andb_false_r, app_nil_r. reflexivity. }
      rewrite Ef2. f_equal. unfold fresh, rs; cbn [i_taken].
      assert (mem s (i_taken st3) = true) as -> by (apply mem_in, G3, Hs2).
      destruct (mem s (i_taken st)); reflexivity.
    + rewrite (F p Hne). unfold st1 at 1; cbn [i_out].
      assert (Ef : from p [OBody s (if mem s (i_wrapped st3) then no_conds M S m_empty else conds_of s) rs'] = []).
      { unfold from; cbn. destruct (Nat.eqb_spec s p); [congruence|reflexivity]. }
      rewrite Ef, app_nil_r. f_equal. unfold fresh; cbn [i_taken st1].
      assert (mem p (s :: i_taken st) = mem p (i_taken st)) as ->.
      { cbn. destruct (Nat.eqb_spec p s); [congruence|reflexivity]. }
      reflexivity.
  - intros x k d Hx Hx' Hk Hp. destruct (Nat.eq_dec x s) as [->|Hne].
    + unfold edges in Hk. destruct (Nat.lt_ge_cases k (List.length (css s))) as [Hlt|Hge].
      * rewrite nth_error_app1 in Hk by assumption. apply G3. apply (D2 k d Hk). exact Hp.
      * rewrite nth_error_app2 in Hk by assumption. apply (D3 Hx' _ _ Hk). rewrite Hp. f_equal. lia.
    + apply (C x k d); auto. cbn. intros [Hxs|Hxs]; [congruence|contradiction].
Qed.

(** Which sheets are emitted: those whose chain of parents leads to the entry. *)
Inductive descends : nat -> Prop :=
| De_entry : descends entry
| De_child s k d : descends s -> nth_error (edges s) k = Some d -> parent d = (s, k) -> descends d.
Lemma inline_once : forall n st, inline_process n entry (IState [] [] []) = IOk st ->
    forall p, (descends p -> from p (i_out st) = own_rules (rules p))
         /\ (from p (i_out st) = [] \/ from p (i_out st) = own_rules (rules p)).
Proof.
  intros n st H p. destruct (inline_process_ok _ _ _ _ H) as [[_ F C] He].
  specialize (F p (fun x => x)). cbn in F. rewrite F. unfold fresh; cbn. rewrite andb_true_r.
  split; [|destruct (mem p (i_taken st)); auto].
  intros Hd. assert (In p (i_taken st)) as Hp.
  { clear F. induction Hd as [|s k d Hd IH Hk Hp]; [assumption|]. exact (C s k d IH (fun x => x) Hk Hp). }
  apply mem_in in Hp. rewrite Hp. reflexivity.
Qed.
End Once.

(** ** Which files are in the conditions they should be in *)
Section Wrap.
Variable below : nat -> nat -> Prop.
Hypothesis below_edge : forall s d, In d (edges s) -> below s d.
Hypothesis below_trans : forall a b c, below a b -> below b c -> below a c.
Hypothesis acyclic : forall s, ~ below s s.
Hypothesis W_deps : forall s, deps s = deps_of (rules s).

Definition wrap_item (it : item) : Prop :=
  match it with OBody s w rs => rs <> [] -> w = conds_of s | _ => True end.
Record wgrow (s : nat) (st st' : istate) : Prop := {
  w_taken : forall p, In p (i_taken st) -> In p (i_taken st');
  w_sub : (forall p, In p (i_wrapped st) -> In p (i_taken st)) -> (forall p, In p (i_wrapped st') -> In p (i_taken st'));
  w_new : forall p, In p (i_wrapped st') -> In p (i_wrapped st) \/ below s p;
  w_out : (forall p, In p (i_wrapped st) -> In p (i_taken st)) -> Forall wrap_item (i_out st) -> Forall wrap_item (i_out st') }.
Lemma wgrow_refl : forall s st, wgrow s st st.
Proof. constructor; auto. Qed.
Lemma wgrow_trans : forall s a b c, wgrow s a b -> wgrow s b c -> wgrow s a c.
Proof.
  intros s a b c [A1 A2 A3 A4] [B1 B2 B3 B4]. constructor; auto.
  intros p Hp. destruct (B3 p Hp) as [H|H]; auto.
Qed.
Lemma wgrow_push : forall s it st, wrap_item it -> wgrow s st (push M S it st).
Proof. intros s it st H. constructor; cbn; auto. intros _ Hf. apply Forall_app; auto. Qed.

Definition wrec (rec : nat -> istate -> ires) : Prop := forall s d st st', In d (edges s) -> rec d st = IOk st' -> wgrow s st st'.
Lemma inline_css_w : forall rec s, wrec rec -> forall l k st st', incl l (edges s) ->
    inline_css rec s k l st = IOk st' -> wgrow s st st'.
Proof.
  intros rec s HR. induction l as [|d l IH]; intros k st st' Hl H; cbn in H.
  - inversion H; subst; apply wgrow_refl.
  - assert (Hl' : incl l (edges s)) by (intros x Hx; apply Hl; right; assumption).
    destruct (is_parent parent d s k); [|eauto].
    destruct (rec d st) as [st1| |] eqn:Er; try discriminate.
    eapply wgrow_trans; [eapply HR; eauto; apply Hl; left; reflexivity|eauto].
Qed.
Lemma inline_rules_w : forall rec s, wrec rec -> forall rs k b ds st st' rs',
    incl (dep_files ds) (edges s) -> inline_rules rec s k b ds rs st = (IOk st', rs') -> wgrow s st st'.
Proof.
  intros rec s HR. induction rs as [|r rs IH]; intros k b ds st st' rs' Hd H; cbn in H.
  - inversion H; subst; apply wgrow_refl.
  - destruct r as [t c|ns| |id ts].
    + destruct ds as [|[d|u] ds]; [discriminate| |].
      * assert (Hd' : incl (dep_files ds) (edges s)) by (intros x Hx; apply Hd; right; assumption).
        destruct (is_parent parent d s k).
        -- destruct (rec d st) as [st1| |] eqn:Er; try discriminate.
           destruct (inline_rules rec s (k + 1) true ds rs st1) as [res r'] eqn:Ei. inversion H; subst.
           eapply wgrow_trans; [eapply HR; [|exact Er]; apply Hd; left; reflexivity|eauto].
        -- destruct (inline_rules rec s (k + 1) b ds rs st) as [res r'] eqn:Ei. inversion H; subst. eauto.
      * destruct b; [discriminate|].
        destruct (inline_rules rec s k false ds rs _) as [res r'] eqn:Ei. inversion H; subst.
        eapply wgrow_trans; [apply (wgrow_push s (OImport s u c) st); exact I|exact (IH _ _ ds _ _ _ Hd Ei)].
    + destruct (inline_rules rec s k b ds rs _) as [res r'] eqn:Ei. inversion H; subst.
      eapply wgrow_trans; [apply (wgrow_push s (OLayer s ns) st); exact I|exact (IH _ _ ds _ _ _ Hd Ei)].
    + destruct (inline_rules rec s k b ds rs _) as [res r'] eqn:Ei. inversion H; subst. eauto.
    + inversion H; subst; apply wgrow_refl.
Qed.
Lemma inline_process_w : forall n s st st', inline_process n s st = IOk st' ->
    (forall p, In p (i_taken st) -> In p (i_taken st'))
    /\ ((forall p, In p (i_wrapped st) -> In p (i_taken st)) -> (forall p, In p (i_wrapped st') -> In p (i_taken st')))
    /\ (forall p, In p (i_wrapped st') -> In p (i_wrapped st) \/ p = s \/ below s p)
    /\ ((forall p, In p (i_wrapped st) -> In p (i_taken st)) -> Forall wrap_item (i_out st) -> Forall wrap_item (i_out st')).
Proof.
  induction n as [|n IH]; intros s st st' H; [discriminate|]. cbn [BundleModel.inline_process] in H.
  assert (HR : wrec (inline_process n)).
  { intros x d sa sb Hd Hi. destruct (IH _ _ _ Hi) as (A & B & C & D). constructor; auto.
    intros p Hp. destruct (C p Hp) as [Hp'|[->|Hp']]; auto. right. eapply below_trans; eauto. }
  set (rs := if mem s (i_taken st) then [] else rules s) in *.
  set (st1 := IState (s :: i_taken st) (i_wrapped st) (i_out st)) in *.
  destruct (inline_css (inline_process n) s 0 (css s) st1) as [st2| |] eqn:E2; try discriminate.
  pose proof (inline_css_w _ s HR _ _ _ _ (fun x Hx => in_or_app _ _ _ (or_introl Hx)) E2) as G2.
  destruct (inline_rules (inline_process n) s _ false (deps s) rs st2) as [res rs'] eqn:E3.
  destruct res as [st3| |]; try discriminate. inversion H; subst; clear H.
  pose proof (inline_rules_w _ s HR _ _ _ _ _ _ _ (fun x Hx => in_or_app _ _ _ (or_intror Hx)) E3) as G3.
  pose proof (wgrow_trans _ _ _ _ G2 G3) as [T B N O]. cbn [st1 i_taken i_wrapped i_out] in *.
  split; [|split; [|split]]; cbn [i_taken i_wrapped i_out].
  - intros p Hp. apply T. right; assumption.
  - intros Hsub p [<-|Hp]; [apply T; left; reflexivity|]. apply B; [intros q Hq; right; apply Hsub, Hq|exact Hp].
  - intros p [<-|Hp]; [auto|]. destruct (N p Hp); auto.
  - intros Hsub Hout. apply Forall_app. split; [apply O; [intros q Hq; right; apply Hsub, Hq|exact Hout]|]. constructor; [|constructor].
    cbn. intros Hrs. destruct (mem s (i_wrapped st3)) eqn:Em; [|reflexivity]. exfalso.
    apply mem_in in Em. destruct (N s Em) as [Hw|Hb]; [|exact (acyclic s Hb)].
    apply Hsub in Hw. apply mem_in in Hw. unfold rs in E3. rewrite Hw in E3. cbn in E3. inversion E3; congruence.
Qed.
Lemma inline_wrapped : forall n st, inline_process n entry (IState [] [] []) = IOk st ->
    forall s w rs, In (OBody s w rs) (i_out st) -> rs <> [] -> w = conds_of s.
Proof.
  intros n st H s w rs Hin Hrs. destruct (inline_process_w _ _ _ _ H) as (_ & _ & _ & O).
  specialize (O (fun p Hp => Hp) (Forall_nil _)). rewrite Forall_forall in O. exact (O _ Hin Hrs).
Qed.
End Wrap.

(** ** Termination *)
Section Term.
Variable V : list nat.       (* the visited sheets, later ones first *)
Hypothesis V_nodup : NoDup V.
Hypothesis V_closed : forall s d, In s V -> In d (edges s) -> In d V.
Hypothesis V_css : forall s k d, In s V -> nth_error (css s) k = Some d -> parent d = (s, k) -> before d s V.
(** position from the end *)
Fixpoint pos (x : nat) (l : list nat) : nat :=
  match l with [] => 0 | y :: r => if Nat.eqb y x then List.length r else pos x r end.
Lemma pos_app : forall x l1 l2, ~ In x l1 -> pos x (l1 ++ x :: l2) = List.length l2.
Proof.
  induction l1 as [|y l1 IH]; intros l2 H; cbn.
  - rewrite Nat.eqb_refl. reflexivity.
  - destruct (Nat.eqb_spec y x); [exfalso; apply H; left; assumption|]. apply IH. intros H1; apply H; right; assumption.
Qed.
Lemma pos_le : forall x l, In x l -> pos x l < List.length l.
Proof.
  induction l as [|y l IH]; intros H; [destruct H|]. cbn. destruct (Nat.eqb_spec y x); [lia|].
  destruct H as [H|H]; [congruence|]. specialize (IH H). lia.
Qed.
Lemma pos_before : forall d x l, NoDup l -> before d x l -> pos x l < pos d l.
Proof.
  intros d x l Hn (l1 & l2 & -> & Hx). rewrite pos_app.
  - replace (l1 ++ d :: l2) with ((l1 ++ [d]) ++ l2) by (rewrite <- app_assoc; reflexivity).
    apply in_split in Hx as Hs. destruct Hs as (a & b & ->).
    assert (Hnx : ~ In x ((l1 ++ [d]) ++ a)).
    { replace (l1 ++ d :: a ++ x :: b) with (((l1 ++ [d]) ++ a) ++ x :: b) in Hn by (rewrite <- !app_assoc; reflexivity).
      apply NoDup_remove_2 in Hn. intros H; apply Hn; apply in_or_app; auto. }
    rewrite app_assoc, pos_app by assumption. rewrite app_length; cbn; lia.
  - apply NoDup_remove_2 in Hn. intros H; apply Hn; apply in_or_app; auto.
Qed.

Notation L := (List.length V).
Definition untaken (st : istate) : nat := left_in V (i_taken st).
Definition need (s : nat) (st : istate) : nat := untaken st * (Datatypes.S L) + (L - pos s V).
Definition fine (P : istate -> istate -> Prop) (r : ires) (st : istate) : Prop :=
  match r with IOk st' => P st st' | IErr => True | IFuel => False end.
Definition more (st st' : istate) : Prop := forall p, In p (i_taken st) -> In p (i_taken st').
Lemma untaken_mono : forall st st', more st st' -> untaken st' <= untaken st.
Proof. intros st st' H. apply left_mono. exact H. Qed.

Lemma inline_fuel : forall n s st, In s V -> need s st < n -> fine more (inline_process n s st) st.
Proof.
  induction n as [|n IH]; intros s st Hs Hn; [lia|]. cbn [BundleModel.inline_process].
  set (rs := if mem s (i_taken st) then [] else rules s).
  set (st1 := IState (s :: i_taken st) (i_wrapped st) (i_out st)).
  assert (H01 : more st st1) by (intros p Hp; right; assumption).
  assert (HC : forall l k st0, more st1 st0 -> (forall i d, nth_error l i = Some d -> nth_error (css s) (k + i) = Some d) ->
             fine more (inline_css (inline_process n) s k l st0) st0).
  { induction l as [|d l IHl]; intros k st0 H0 Hl; cbn [BundleModel.inline_css].
    - cbn. intros p Hp; exact Hp.
    - assert (Hl' : forall i x, nth_error l i = Some x -> nth_error (css s) (k + 1 + i) = Some x).
      { intros i x Hx. rewrite <- (Hl (Datatypes.S i) x Hx). f_equal. lia. }
      assert (Hkd : nth_error (css s) k = Some d) by (rewrite <- (Hl 0 d eq_refl); f_equal; lia).
      destruct (is_parent parent d s k) eqn:Ep; [|apply IHl; auto].
      apply is_parent_true in Ep.
      assert (HdV : In d V).
      { apply (V_closed s); [assumption|]. apply in_or_app; left. eapply nth_error_In; eauto. }
      assert (Hneed : need d st0 < n).
      { pose proof (pos_before d s V V_nodup (V_css s k d Hs Hkd Ep)) as Hp.
        pose proof (pos_le d V HdV). pose proof (untaken_mono st1 st0 H0). pose proof (untaken_mono st st1 H01).
        unfold need in *. nia. }
      specialize (IH d st0 HdV Hneed). destruct (inline_process n d st0) as [st2| |]; cbn in IH; cbn; auto.
      specialize (IHl (k + 1) st2 (fun p Hp => IH p (H0 p Hp)) Hl').
      destruct (inline_css (inline_process n) s (k + 1) l st2); cbn in *; auto. intros p Hp. apply IHl, IH, Hp. }
  specialize (HC (css s) 0 st1 (fun p Hp => Hp) (fun i d H => H)).
  destruct (inline_css (inline_process n) s 0 (css s) st1) as [st2| |]; cbn in HC; cbn; auto.
  assert (HD : rs = [] \/ ~ In s (i_taken st)).
  { unfold rs. destruct (mem s (i_taken st)) eqn:E; [auto|]. right. apply mem_not; assumption. }
  assert (HR : fine more (fst (inline_rules (inline_process n) s (List.length (css s)) false (deps s) rs st2)) st2).
  { destruct HD as [->|HD]; [cbn; intros p Hp; exact Hp|].
    assert (Hu : untaken st1 < untaken st).
    { unfold untaken. cbn. apply left_cons; assumption. }
    assert (G : forall rs0 k b ds st0, more st1 st0 -> incl (dep_files ds) (edges s) ->
               fine more (fst (inline_rules (inline_process n) s k b ds rs0 st0)) st0).
    { induction rs0 as [|r rs0 IHr]; intros k b ds st0 H0 Hds; cbn [BundleModel.inline_rules].
      - cbn. intros p Hp; exact Hp.
      - destruct r as [t c|ns| |id ts].
        + destruct ds as [|[d|u] ds]; [exact I| |].
          * assert (Hds' : incl (dep_files ds) (edges s)) by (intros x Hx; apply Hds; right; assumption).
            destruct (is_parent parent d s k) eqn:Ep.
            -- assert (HdV : In d V) by (apply (V_closed s); [assumption|]; apply Hds; left; reflexivity).
               assert (Hneed : need d st0 < n).
               { pose proof (pos_le d V HdV). pose proof (untaken_mono st1 st0 H0). unfold need in *. nia. }
               specialize (IH d st0 HdV Hneed). destruct (inline_process n d st0) as [st3| |]; cbn in IH; cbn; auto.
               specialize (IHr (k + 1) true ds st3 (fun p Hp => IH p (H0 p Hp)) Hds').
               destruct (inline_rules (inline_process n) s (k + 1) true ds rs0 st3) as [[x| |] y]; cbn in *; auto.
               intros p Hp. apply IHr, IH, Hp.
            -- specialize (IHr (k + 1) b ds st0 H0 Hds').
               destruct (inline_rules (inline_process n) s (k + 1) b ds rs0 st0) as [[x| |] y]; cbn in *; auto.
          * destruct b; [exact I|].
            specialize (IHr k false ds (push M S (OImport s u c) st0) H0 Hds).
            destruct (inline_rules (inline_process n) s k false ds rs0 _) as [[x| |] y]; cbn in *; auto.
        + specialize (IHr k b ds (push M S (OLayer s ns) st0) H0 Hds).
          destruct (inline_rules (inline_process n) s k b ds rs0 _) as [[x| |] y]; cbn in *; auto.
        + specialize (IHr k b ds st0 H0 Hds).
          destruct (inline_rules (inline_process n) s k b ds rs0 _) as [[x| |] y]; cbn in *; auto.
        + cbn. intros p Hp; exact Hp. }
    apply G; [exact HC|]. intros x Hx. apply in_or_app; auto. }
  destruct (inline_rules (inline_process n) s (List.length (css s)) false (deps s) rs st2) as [[st3| |] rs']; cbn in *; auto.
  intros p Hp. apply HR, HC, H01, Hp.
Qed.
End Term.
End Inline.
