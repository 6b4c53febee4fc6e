(** * Proofs about loading: which files, how many steps, under which conditions *)
From Coq Require Import List Bool Arith String Lia.
From Verif Require Import BundleModel BundleSpec.
Import ListNotations.

Section Load.
Context {M S : Type}.
Notation srule := (srule M S).
Notation conds := (conds M S).
Notation sheet := (sheet M S).
Notation call := (call M S).
Notation lstate := (lstate M S).
Variable m_empty : M.
Variable m_is_empty : M -> bool.
Variable m_and : M -> M -> option M.
Variable m_or : M -> M -> M.
Variable s_and s_or : S -> S -> S.
Variable read : path -> option (list srule).
Variable css_modules : bool.
Variable entry : path.

Notation load_step := (load_step M S m_empty m_is_empty m_and m_or s_and s_or read css_modules).
Notation load_run := (load_run M S m_empty m_is_empty m_and m_or s_and s_or read css_modules).
Notation load_init := (load_init M S m_empty entry).
Notation merge_conds := (merge_conds M S m_empty m_is_empty m_or s_or).
Notation nested_conds := (nested_conds M S m_and s_and).
Notation import_calls := (import_calls M S m_and s_and).
Notation target_calls := (target_calls M S).
Notation composes_of := (composes_of M S).
Notation prefix_layer := (prefix_layer M S).
Notation find_sheet := (find_sheet M S).
Notation update_sheet := (update_sheet M S).
Notation imports := (imports read).
Notation composes := (composes read css_modules).
Notation refers := (refers read css_modules).
Notation reach := (reach read css_modules).

(** ** Basic facts *)
Lemma composes_files : forall rs,
    files (composes_of rs) = files (flat_map (fun r => match r with SRule _ ts => ts | _ => [] end) rs).
Proof.
  assert (H : forall a b, files (a ++ b) = files a ++ files b).
  { induction a as [|[p|u|] a IH]; intros b; cbn; rewrite ?IH; auto. }
  induction rs as [|r rs IH]; [reflexivity|]. destruct r; cbn; rewrite ?H, ?IH; auto.
Qed.
Lemma composes_read : forall s rs, read s = Some rs ->
    composes s = if css_modules then files (composes_of rs) else [].
Proof. intros s rs H. unfold composes. rewrite H, composes_files. reflexivity. Qed.

(** The calls made for a file are those of the graph. *)
Lemma import_calls_files : forall rule rs a, import_calls rule rs = Some a ->
    map call_file a = map fst (imports_in rs).
Proof.
  induction rs as [|r rs IH]; intros a H; cbn in H.
  - inversion H; reflexivity.
  - destruct r as [t c| | |]; cbn; auto.
    destruct (nested_conds rule c) as [c'|]; [|discriminate].
    destruct t as [p|u|]; cbn in *; auto; [|discriminate].
    destruct (import_calls rule rs) as [a'|]; [|discriminate]. inversion H; subst. cbn. f_equal. auto.
Qed.
Lemma target_calls_files : forall rule ts a, target_calls rule ts = Some a -> map call_file a = files ts.
Proof.
  induction ts as [|t ts IH]; intros a H; cbn in H.
  - inversion H; reflexivity.
  - destruct t as [p|u|]; try discriminate.
    destruct (target_calls rule ts) as [a'|]; [|discriminate]. inversion H; subst. cbn. f_equal. auto.
Qed.
Lemma import_calls_in : forall rule rs a c, import_calls rule rs = Some a -> In c a ->
    exists ic, In (call_file c, ic) (imports_in rs) /\ nested_conds rule ic = Some (call_rule c).
Proof.
  induction rs as [|r rs IH]; intros a c H Hc; cbn in H.
  - inversion H; subst. destruct Hc.
  - destruct r as [t ic| | |]; cbn; eauto.
    destruct (nested_conds rule ic) as [c'|] eqn:En; [|discriminate].
    destruct t as [p|u|]; cbn in *; eauto; [|discriminate].
    destruct (import_calls rule rs) as [a'|]; [|discriminate]. inversion H; subst.
    destruct Hc as [<-|Hc]; cbn.
    + exists ic; auto.
    + destruct (IH a' c eq_refl Hc) as (x & Hx & Hn). eauto.
Qed.
Lemma import_calls_out : forall rule rs a q ic, import_calls rule rs = Some a -> In (q, ic) (imports_in rs) ->
    exists c', nested_conds rule ic = Some c' /\ In (Call q c') a.
Proof.
  induction rs as [|r rs IH]; intros a q ic H Hq; cbn in H.
  - destruct Hq.
  - destruct r as [t c0| | |]; cbn in Hq; eauto.
    destruct (nested_conds rule c0) as [c'|] eqn:En; [|discriminate].
    destruct t as [p|u|]; cbn in *; eauto; [|discriminate].
    destruct (import_calls rule rs) as [a'|]; [|discriminate]. inversion H; subst.
    destruct Hq as [Hq|Hq].
    + inversion Hq; subst. exists c'. split; [assumption|left; reflexivity].
    + destruct (IH a' q ic eq_refl Hq) as (x & Hx & Hn). exists x. split; [assumption|right; assumption].
Qed.
Lemma target_calls_in : forall rule ts a c, target_calls rule ts = Some a -> In c a ->
    In (call_file c) (files ts) /\ call_rule c = rule.
Proof.
  induction ts as [|t ts IH]; intros a c H Hc; cbn in H.
  - inversion H; subst; destruct Hc.
  - destruct t as [p|u|]; try discriminate.
    destruct (target_calls rule ts) as [a'|]; [|discriminate]. inversion H; subst.
    destruct Hc as [<-|Hc]; cbn; [auto|]. destruct (IH a' c eq_refl Hc); auto.
Qed.
Lemma target_calls_out : forall rule ts a q, target_calls rule ts = Some a -> In q (files ts) ->
    In (Call q rule) a.
Proof.
  induction ts as [|t ts IH]; intros a q H Hq; cbn in H.
  - destruct Hq.
  - destruct t as [p|u|]; try discriminate.
    destruct (target_calls rule ts) as [a'|]; [|discriminate]. inversion H; subst.
    destruct Hq as [<-|Hq]; [left; reflexivity|right; auto].
Qed.

(** all calls made for a newly loaded file *)
Definition calls_of (rule : conds) (rs : list srule) : option (list call) :=
  match import_calls rule rs, (if css_modules then target_calls rule (composes_of rs) else Some []) with
  | Some a, Some b => Some (a ++ b)
  | _, _ => None
  end.
Lemma calls_of_in : forall rule rs p a c, read p = Some rs -> calls_of rule rs = Some a -> In c a ->
    (exists ic, In (call_file c, ic) (imports p) /\ nested_conds rule ic = Some (call_rule c))
    \/ (In (call_file c) (composes p) /\ call_rule c = rule).
Proof.
  intros rule rs p a c Hr H Hc. unfold calls_of in H. rewrite (composes_read _ _ Hr). unfold imports. rewrite Hr.
  destruct (import_calls rule rs) as [x|] eqn:Ex; [|discriminate].
  destruct (if css_modules then target_calls rule (composes_of rs) else Some []) as [y|] eqn:Ey; [|discriminate].
  inversion H; subst. apply in_app_or in Hc as [Hc|Hc].
  - left. eapply import_calls_in; eauto.
  - right. destruct css_modules; [eapply target_calls_in; eauto|]. inversion Ey; subst; destruct Hc.
Qed.
Lemma calls_of_import : forall rule rs p a q ic, read p = Some rs -> calls_of rule rs = Some a ->
    In (q, ic) (imports p) -> exists c', nested_conds rule ic = Some c' /\ In (Call q c') a.
Proof.
  intros rule rs p a q ic Hr H Hq. unfold calls_of in H. unfold imports in Hq. rewrite Hr in Hq.
  destruct (import_calls rule rs) as [x|] eqn:Ex; [|discriminate].
  destruct (if css_modules then target_calls rule (composes_of rs) else Some []) as [y|] eqn:Ey; [|discriminate].
  inversion H; subst. destruct (import_calls_out _ _ _ _ _ Ex Hq) as (c' & H1 & H2).
  exists c'; split; [assumption|]. apply in_or_app; auto.
Qed.
Lemma calls_of_composes : forall rule rs p a q, read p = Some rs -> calls_of rule rs = Some a ->
    In q (composes p) -> In (Call q rule) a.
Proof.
  intros rule rs p a q Hr H Hq. unfold calls_of in H. rewrite (composes_read _ _ Hr) in Hq.
  destruct (import_calls rule rs) as [x|] eqn:Ex; [|discriminate].
  destruct css_modules; [|destruct Hq].
  destruct (target_calls rule (composes_of rs)) as [y|] eqn:Ey; [|discriminate].
  inversion H; subst. apply in_or_app; right. eapply target_calls_out; eauto.
Qed.
Lemma calls_of_length : forall rule rs p a, read p = Some rs -> calls_of rule rs = Some a ->
    List.length a = List.length (imports p) + List.length (composes p).
Proof.
  intros rule rs p a Hr H. unfold calls_of in H. rewrite (composes_read _ _ Hr). unfold imports. rewrite Hr.
  destruct (import_calls rule rs) as [x|] eqn:Ex; [|discriminate].
  destruct (if css_modules then target_calls rule (composes_of rs) else Some []) as [y|] eqn:Ey; [|discriminate].
  inversion H; subst. rewrite app_length. f_equal.
  - rewrite <- (map_length call_file), (import_calls_files _ _ _ Ex). apply map_length.
  - destruct css_modules; [|inversion Ey; reflexivity].
    rewrite <- (map_length call_file), (target_calls_files _ _ _ Ey). reflexivity.
Qed.

(** ** One step *)
Inductive step_spec (st st' : lstate) : Prop :=
| SS_known file rule t1 t2 e c :
    l_todo st = t1 ++ Call file rule :: t2 ->
    find_sheet file (l_sheets st) = Some e -> merge_conds (sh_conds e) rule = Some c ->
    st' = LState (update_sheet file c (l_sheets st)) (t1 ++ t2) -> step_spec st st'
| SS_new file rule t1 t2 rs a :
    l_todo st = t1 ++ Call file rule :: t2 ->
    find_sheet file (l_sheets st) = None -> read file = Some rs -> calls_of rule rs = Some a ->
    st' = LState (l_sheets st ++ [Sheet file rule (map (prefix_layer rule) rs)]) ((t1 ++ t2) ++ a) ->
    step_spec st st'.
Lemma step_split : forall st k st', load_step st k = Some st' -> step_spec st st'.
Proof.
  intros st k st' H. unfold load_step in H.
  destruct (nth_error (l_todo st) k) as [[file rule]|] eqn:Ek; [|discriminate].
  assert (Hs : l_todo st = firstn k (l_todo st) ++ Call file rule :: skipn (1 + k) (l_todo st)).
  { rewrite <- (firstn_skipn k (l_todo st)) at 1. f_equal.
    clear H. revert Ek. generalize (l_todo st). induction k as [|k IH]; intros [|x l] Ek; cbn in *; try discriminate.
    - inversion Ek; reflexivity.
    - apply IH; assumption. }
  destruct (find_sheet file (l_sheets st)) as [e|] eqn:Ef.
  - destruct (merge_conds (sh_conds e) rule) as [c|] eqn:Ec; [|discriminate].
    inversion H. eapply SS_known; eauto.
  - destruct (read file) as [rs|] eqn:Er; [|discriminate].
    destruct (import_calls rule rs) as [x|] eqn:Ex; [|discriminate].
    destruct (if css_modules then target_calls rule (composes_of rs) else Some []) as [y|] eqn:Ey; [|discriminate].
    inversion H. eapply SS_new; eauto. unfold calls_of. rewrite Ex, Ey. reflexivity.
Qed.

Lemma run_ind : forall (P : lstate -> Prop),
    P load_init -> (forall st k st', P st -> load_step st k = Some st' -> P st') ->
    forall sched st, load_run sched load_init = Some st -> P st.
Proof.
  intros P H0 HS sched. assert (G : forall sched st0 st, P st0 -> load_run sched st0 = Some st -> P st).
  { clear sched. induction sched as [|k sched IH]; intros st0 st Hp H; cbn in H.
    - inversion H; subst; assumption.
    - destruct (load_step st0 k) as [st1|] eqn:E; [|discriminate]. eapply IH; [|exact H]. eauto. }
  intros st; apply G; assumption.
Qed.

Lemma find_sheet_in : forall p l s, find_sheet p l = Some s -> In s l /\ sh_path s = p.
Proof. intros p l s H. apply find_some in H as [H1 H2]. apply Nat.eqb_eq in H2. auto. Qed.
Lemma find_sheet_none : forall p l, find_sheet p l = None -> ~ In p (map sh_path l).
Proof.
  intros p l H Hin. apply in_map_iff in Hin as (s & Hs & Hin).
  pose proof (find_none _ _ H _ Hin) as Hf. cbn in Hf. rewrite Hs, Nat.eqb_refl in Hf. discriminate.
Qed.
Lemma update_paths : forall p c l, map sh_path (update_sheet p c l) = map sh_path l.
Proof.
  induction l as [|s l IH]; [reflexivity|]. cbn. destruct (Nat.eqb_spec (sh_path s) p); cbn; congruence.
Qed.
Lemma update_in : forall p c l s, NoDup (map sh_path l) -> In s (update_sheet p c l) ->
    (sh_path s <> p /\ In s l) \/ (sh_path s = p /\ sh_conds s = c /\ exists s', In s' l /\ sh_path s' = p /\ sh_rules s = sh_rules s').
Proof.
  induction l as [|s l IH]; intros s0 Hn H; [destruct H|]. cbn in *. inversion Hn as [|? ? Hx Hnr]; subst.
  destruct (Nat.eqb_spec (sh_path s) p) as [E|E]; destruct H as [<-|H].
  - right. cbn. repeat split; auto. exists s; auto.
  - left. split; [|auto]. intros E2. apply Hx. rewrite E, <- E2. apply in_map. assumption.
  - auto.
  - destruct (IH s0 Hnr H) as [[? ?]|(? & ? & s' & ? & ? & ?)]; [auto|].
    right. repeat split; auto. exists s'; auto.
Qed.
Lemma update_keeps : forall p c l s, In s l -> sh_path s <> p -> In s (update_sheet p c l).
Proof.
  induction l as [|s l IH]; intros s0 H Hne; [destruct H|]. cbn.
  destruct (Nat.eqb_spec (sh_path s) p) as [E|E]; destruct H as [<-|H]; try congruence; cbn; auto.
Qed.
Lemma update_hit : forall p c l s, NoDup (map sh_path l) -> In s l -> sh_path s = p ->
    In (Sheet p c (sh_rules s)) (update_sheet p c l).
Proof.
  induction l as [|s l IH]; intros s0 Hn H Hp; [destruct H|]. cbn in *. inversion Hn as [|? ? Hx Hnr]; subst.
  destruct (Nat.eqb_spec (sh_path s) (sh_path s0)) as [E|E].
  - destruct H as [->|H]; [left; reflexivity|]. exfalso. apply Hx. rewrite E. apply in_map; assumption.
  - destruct H as [->|H]; [congruence|]. right. apply IH; auto.
Qed.

(** ** The loaded files *)
Definition known (st : lstate) (p : path) : Prop :=
  In p (map sh_path (l_sheets st)) \/ In p (map call_file (l_todo st)).
Record inv (st : lstate) : Prop := {
  v_nodup : NoDup (map sh_path (l_sheets st));
  v_reach : forall p, known st p -> reach entry p;
  v_closed : forall p q, In p (map sh_path (l_sheets st)) -> refers p q -> known st q;
  v_entry : known st entry;
  v_rules : forall s, In s (l_sheets st) -> exists rs l, read (sh_path s) = Some rs /\ sh_rules s = map (prefix_layer l) rs;
  v_first : match l_sheets st with
            | [] => map call_file (l_todo st) = [entry]
            | s :: _ => sh_path s = entry
            end }.

Lemma refers_calls : forall rule rs p a q, read p = Some rs -> calls_of rule rs = Some a ->
    (refers p q <-> In q (map call_file a)).
Proof.
  intros rule rs p a q Hr Ha; split.
  - intros [[c Hc]|Hc].
    + destruct (calls_of_import _ _ _ _ _ _ Hr Ha Hc) as (c' & _ & H). apply in_map_iff. eexists; split; [|exact H]. reflexivity.
    + pose proof (calls_of_composes _ _ _ _ _ Hr Ha Hc) as H. apply in_map_iff. eexists; split; [|exact H]. reflexivity.
  - intros H. apply in_map_iff in H as (c & <- & H).
    destruct (calls_of_in _ _ _ _ _ Hr Ha H) as [(ic & Hi & _)|[Hi _]]; [left; exists ic; assumption|right; assumption].
Qed.

Lemma inv_init : inv load_init.
Proof.
  constructor; cbn; auto using NoDup_nil; try tauto.
  - intros p [[]|[<-|[]]]. constructor.
  - right; left; reflexivity.
Qed.
Lemma todo_files : forall (t1 t2 : list call) c,
    map call_file (t1 ++ c :: t2) = map call_file t1 ++ call_file c :: map call_file t2.
Proof. intros. rewrite map_app. reflexivity. Qed.

Lemma inv_step : forall st k st', inv st -> load_step st k = Some st' -> inv st'.
Proof.
  intros st k st' I H. apply step_split in H. destruct I as [I1 I2 I3 I4 I5 I6].
  destruct H as [file rule t1 t2 e c Ht Hf Hm ->|file rule t1 t2 rs a Ht Hf Hr Ha ->].
  - apply find_sheet_in in Hf as [He Hp].
    assert (Hk : forall p, known (LState (update_sheet file c (l_sheets st)) (t1 ++ t2)) p <-> known st p).
    { intros p. unfold known; cbn [l_sheets l_todo]. rewrite update_paths, Ht, todo_files, map_app. cbn.
      split; intros [H|H]; auto.
      - right. apply in_app_or in H as [H|H]; apply in_or_app; cbn; auto.
      - apply in_app_or in H as [H|[H|H]]; try (right; apply in_or_app; auto; fail).
        left. subst p. rewrite <- Hp. apply in_map; assumption. }
    constructor; cbn [l_sheets l_todo].
    + rewrite update_paths; assumption.
    + intros p Hq. apply I2, Hk, Hq.
    + intros p q Hp' Hr. rewrite update_paths in Hp'. apply Hk. eauto.
    + apply Hk, I4.
    + intros s Hs. apply update_in in Hs; [|assumption].
      destruct Hs as [[_ Hs]|(Hsp & _ & s' & Hs' & Hp' & Hru)]; [auto|].
      destruct (I5 s' Hs') as (rs & l & Hrs & Hl). exists rs, l. split; [congruence|congruence].
    + destruct (l_sheets st) as [|s0 r0] eqn:E; [destruct He|]. cbn.
      destruct (Nat.eqb_spec (sh_path s0) file); cbn; congruence.
  - apply find_sheet_none in Hf.
    assert (Hreach : reach entry file).
    { apply I2. right. rewrite Ht, todo_files. apply in_or_app; right; left; reflexivity. }
    assert (Hk : forall p, known (LState (l_sheets st ++ [Sheet file rule (map (prefix_layer rule) rs)]) ((t1 ++ t2) ++ a)) p
                           <-> known st p \/ In p (map call_file a)).
    { intros p. unfold known; cbn [l_sheets l_todo]. rewrite Ht, todo_files, !map_app. cbn. rewrite !in_app_iff. cbn. tauto. }
    constructor; cbn [l_sheets l_todo].
    + rewrite map_app. cbn. apply NoDup_Add with (a := file) (l := map sh_path (l_sheets st)).
      * rewrite <- (app_nil_r (map sh_path (l_sheets st))) at 1. apply Add_app.
      * split; assumption.
    + intros p Hp. apply Hk in Hp as [Hp|Hp]; [auto|]. econstructor; [exact Hreach|].
      eapply refers_calls; eauto.
    + intros p q Hp Hq. apply Hk. rewrite map_app in Hp. apply in_app_or in Hp as [Hp|[<-|[]]]; [eauto|].
      right. eapply refers_calls; eauto.
    + apply Hk; auto.
    + intros s Hs. apply in_app_or in Hs as [Hs|[<-|[]]]; [auto|]. exists rs, rule; auto.
    + destruct (l_sheets st) as [|s0 r0] eqn:E; cbn; [|assumption].
      rewrite Ht, todo_files in I6. destruct t1 as [|x t1]; [cbn in I6; congruence|].
      exfalso. destruct t1; cbn in I6; inversion I6.
Qed.

Notation loads := (loads M S m_empty m_is_empty m_and m_or s_and s_or read css_modules entry).
Lemma loads_inv : forall sched l, loads sched l -> inv (LState l []).
Proof. intros sched l H. exact (run_ind inv inv_init inv_step _ _ H). Qed.

Lemma loads_files : forall sched l, loads sched l ->
    NoDup (map sh_path l) /\ (forall p, In p (map sh_path l) <-> reach entry p).
Proof.
  intros sched l H. apply loads_inv in H. destruct H as [I1 I2 I3 I4 I5 I6]. cbn in *.
  split; [assumption|]. intros p; split.
  - intros Hp. apply I2. left; assumption.
  - intros Hp. induction Hp as [|s d Hs IH Hr].
    + destruct I4 as [H|[]]; assumption.
    + destruct (I3 _ _ IH Hr) as [H|[]]; assumption.
Qed.
Lemma loads_head : forall sched l, loads sched l -> exists s r, l = s :: r /\ sh_path s = entry.
Proof.
  intros sched l H. apply loads_inv in H. destruct H as [_ _ _ _ _ I6]. cbn in I6.
  destruct l as [|s r]; [discriminate|]. eauto.
Qed.

(** ** Termination *)
Definition weight (p : path) : nat := List.length (imports p) + List.length (composes p).
Definition weights (l : list path) : nat := list_sum (map weight l).
Lemma weights_app : forall a b, weights (a ++ b) = weights a + weights b.
Proof. intros. unfold weights. rewrite map_app. apply list_sum_app. Qed.

Lemma run_count : forall sched st st', load_run sched st = Some st' -> inv st ->
    List.length sched + List.length (l_todo st') + weights (map sh_path (l_sheets st))
    = List.length (l_todo st) + weights (map sh_path (l_sheets st')).
Proof.
  induction sched as [|k sched IH]; intros st st' H I; cbn in H.
  - inversion H; subst. cbn. lia.
  - destruct (load_step st k) as [st1|] eqn:E; [|discriminate].
    pose proof (inv_step _ _ _ I E) as I1. specialize (IH _ _ H I1). cbn [List.length].
    apply step_split in E.
    destruct E as [file rule t1 t2 e c Ht Hf Hm ->|file rule t1 t2 rs a Ht Hf Hr Ha ->]; cbn [l_sheets l_todo] in IH.
    + rewrite update_paths in IH. rewrite Ht. rewrite !app_length in *. cbn. lia.
    + rewrite map_app, weights_app in IH. cbn [map sh_path] in IH.
      assert (Hw : weights [file] = List.length a).
      { unfold weights. cbn. unfold weight. rewrite (calls_of_length _ _ _ _ Hr Ha). lia. }
      rewrite Ht. rewrite !app_length in *. cbn [List.length]. lia.
Qed.

Lemma weights_incl : forall l u, NoDup l -> incl l u -> weights l <= weights u.
Proof.
  induction l as [|x l IH]; intros u Hn Hi; [cbn; lia|]. inversion Hn; subst.
  destruct (in_split x u) as (u1 & u2 & ->); [apply Hi; left; reflexivity|].
  assert (weights l <= weights (u1 ++ u2)).
  { apply IH; [assumption|]. intros y Hy. specialize (Hi y (or_intror Hy)).
    apply in_app_or in Hi as [Hi|[->|Hi]]; [apply in_or_app; auto|contradiction|apply in_or_app; auto]. }
  change (x :: l) with ([x] ++ l). change (x :: u2) with ([x] ++ u2).
  rewrite !weights_app in *. lia.
Qed.

(** Whatever the schedule, loading a finite set of files takes finitely many steps. *)
Lemma load_bounded : forall universe sched st,
    (forall p, reach entry p -> In p universe) -> load_run sched load_init = Some st ->
    List.length sched <= 1 + weights universe.
Proof.
  intros u sched st Hu H. pose proof (run_count _ _ _ H inv_init) as Hc.
  pose proof (run_ind inv inv_init inv_step _ _ H) as I. cbn in Hc.
  assert (weights (map sh_path (l_sheets st)) <= weights u).
  { apply weights_incl; [apply I|]. intros p Hp. apply Hu. apply (v_reach _ I). left; assumption. }
  lia.
Qed.

Lemma weights_refs : forall u, weights u = List.length (flat_map (refs read css_modules) u).
Proof.
  unfold weights. induction u as [|p u IH]; [reflexivity|]. cbn [map flat_map]. rewrite app_length, <- IH.
  unfold refs. rewrite app_length, map_length. reflexivity.
Qed.
Lemma load_finite : forall universe sched st,
    (forall p, reach entry p -> In p universe) -> load_run sched load_init = Some st ->
    List.length sched <= 1 + List.length (flat_map (refs read css_modules) universe).
Proof. intros u sched st Hu H. rewrite <- weights_refs. exact (load_bounded u sched st Hu H). Qed.
End Load.
