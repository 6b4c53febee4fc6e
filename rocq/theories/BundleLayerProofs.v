(** * Imports of one file into different layers are rejected *)
From Coq Require Import List Bool Arith String Lia.
From Verif Require Import BundleModel BundleSpec BundleLoadProofs.
Import ListNotations.

Section Layer.
Context {M S : Type}.
Notation srule := (srule M S).
Notation conds := (conds M S).
Notation sheet := (sheet M S).
Notation call := (call M S).
Notation lstate := (lstate M S).
Variable m_empty : M.
Variable m_is_empty : M -> bool.
Variable m_and : M -> M -> option M.
Variable m_or : M -> M -> M.
Variable s_and s_or : S -> S -> S.
Variable read : path -> option (list srule).
Variable css_modules : bool.
Variable entry : path.

Notation load_step := (load_step M S m_empty m_is_empty m_and m_or s_and s_or read css_modules).
Notation load_run := (load_run M S m_empty m_is_empty m_and m_or s_and s_or read css_modules).
Notation load_init := (load_init M S m_empty entry).
Notation merge_conds := (merge_conds M S m_empty m_is_empty m_or s_or).
Notation nested_conds := (nested_conds M S m_and s_and).
Notation import_calls := (import_calls M S m_and s_and).
Notation target_calls := (target_calls M S).
Notation composes_of := (composes_of M S).
Notation find_sheet := (find_sheet M S).
Notation update_sheet := (update_sheet M S).
Notation calls_of := (calls_of m_and s_and css_modules).
Notation loads := (loads M S m_empty m_is_empty m_and m_or s_and s_or read css_modules entry).
Notation step_split := (step_split m_empty m_is_empty m_and m_or s_and s_or read css_modules).

(** The layers that still have to fit together for the file [p]. *)
Definition opt {A} (o : option A) : list A := match o with Some x => [x] | None => [] end.
Definition of_call (p : path) (c : call) : list (option layer_name) :=
  if Nat.eqb (call_file c) p then opt (c_layer (call_rule c)) else [].
Lemma of_call_eq : forall p f r, of_call p (Call f r) = if Nat.eqb f p then opt (c_layer r) else [].
Proof. reflexivity. Qed.
Definition of_sheets (p : path) (l : list sheet) : list (option layer_name) :=
  match find_sheet p l with Some s => opt (c_layer (sh_conds s)) | None => [] end.
Definition demands (p : path) (st : lstate) : list (option layer_name) :=
  of_sheets p (l_sheets st) ++ flat_map (of_call p) (l_todo st).

Definition fit (l : list (option layer_name)) : Prop :=
  exists n, Forall (eq n) l /\ (n = None -> List.length l <= 1).

Lemma fit_incl : forall l l', (forall n, Forall (eq n) l -> Forall (eq n) l') -> List.length l' <= List.length l -> fit l -> fit l'.
Proof. intros l l' H L (n & F & B). exists n. split; [auto|]. intros N. specialize (B N). lia. Qed.

Lemma find_update : forall p c l e, find_sheet p l = Some e -> find_sheet p (update_sheet p c l) = Some (Sheet p c (sh_rules e)).
Proof.
  intros p c l e. unfold BundleModel.find_sheet. induction l as [|s l IH]; cbn [find BundleModel.update_sheet]; [discriminate|].
  destruct (Nat.eqb (sh_path s) p) eqn:E.
  - intros H. inversion H; subst. cbn [find sh_path]. rewrite Nat.eqb_refl. reflexivity.
  - cbn [find]. rewrite E. auto.
Qed.
Lemma find_update_other : forall p q c l, q <> p -> find_sheet q (update_sheet p c l) = find_sheet q l.
Proof.
  intros p q c l N. unfold BundleModel.find_sheet. induction l as [|s l IH]; cbn [find BundleModel.update_sheet]; [reflexivity|].
  destruct (Nat.eqb (sh_path s) p) eqn:E.
  - apply Nat.eqb_eq in E. cbn [find sh_path].
    assert (Nat.eqb p q = false) as -> by (apply Nat.eqb_neq; congruence).
    assert (Nat.eqb (sh_path s) q = false) as -> by (apply Nat.eqb_neq; congruence). reflexivity.
  - cbn [find]. rewrite IH. reflexivity.
Qed.
Lemma find_snoc : forall p l s, find_sheet p (l ++ [s]) = match find_sheet p l with
    | Some e => Some e | None => if Nat.eqb (sh_path s) p then Some s else None end.
Proof.
  intros p l s. unfold BundleModel.find_sheet. induction l as [|x l IH]; cbn [find app]; [reflexivity|].
  destruct (Nat.eqb (sh_path x) p); [reflexivity|exact IH].
Qed.

Lemma olname_eqb_eq : forall a b : option layer_name, olname_eqb a b = true -> a = b.
Proof.
  intros [a|] [b|]; cbn; try discriminate; auto. intros H. f_equal. unfold lname_eqb in H.
  destruct (list_eq_dec string_dec a b); congruence.
Qed.

(** Merging keeps the only layer there is, and fails on two that do not fit. *)
Lemma merge_fit : forall e r c, merge_conds e r = Some c ->
  match c_layer e, c_layer r with
  | Some x, Some y => x = y /\ x <> None /\ c_layer c = Some x
  | Some x, None => c_layer c = Some x
  | None, Some y => c_layer c = Some y
  | None, None => c_layer c = None
  end.
Proof.
  intros [em es el] [rm rs rl] c H. unfold BundleModel.merge_conds in H. cbn [c_media c_supports c_layer] in *.
  destruct (_ || _) in H; [discriminate|].
  destruct rl as [rl|], el as [el|]; try (inversion H; reflexivity).
  destruct (negb (olname_eqb rl el)) eqn:E; [discriminate|]. apply negb_false_iff, olname_eqb_eq in E. subst rl.
  destruct el as [el|]; cbn in H; [|discriminate]. inversion H. cbn. split; [reflexivity|]. split; [discriminate|reflexivity].
Qed.

Lemma step_fit : forall p st k st', load_step st k = Some st' -> fit (demands p st') -> fit (demands p st).
Proof.
  intros p st k st' H. apply step_split in H.
  destruct H as [file rule t1 t2 e c Ht Hf Hm ->|file rule t1 t2 rs a Ht Hf Hr Ha ->];
    unfold demands; cbn [l_sheets l_todo]; rewrite Ht, ?flat_map_app; cbn [flat_map]; rewrite of_call_eq.
  - destruct (Nat.eqb file p) eqn:E.
    + apply Nat.eqb_eq in E. subst file. unfold of_sheets. rewrite Hf, (find_update _ _ _ _ Hf). cbn [sh_conds].
      pose proof (merge_fit _ _ _ Hm) as X. set (A := flat_map (of_call p) t1). set (B := flat_map (of_call p) t2).
      destruct (c_layer (sh_conds e)) as [x|], (c_layer rule) as [y|]; [destruct X as (<- & N & ->)|rewrite X|rewrite X|rewrite X]; cbn [opt app].
      * intros (n & F & L). exists n. inversion F as [|? ? Fx Fr]; subst. split; [|intros ->; contradiction].
        constructor; [reflexivity|]. rewrite Forall_app in *. destruct Fr. split; [assumption|]. constructor; [reflexivity|assumption].
      * auto.
      * apply fit_incl; [|rewrite !app_length; cbn; rewrite app_length; lia].
        intros n F. inversion F as [|? ? Fx Fr]; subst. rewrite Forall_app in *. destruct Fr. split; [assumption|]. constructor; [reflexivity|assumption].
      * auto.
    + apply Nat.eqb_neq in E. unfold of_sheets. rewrite find_update_other by congruence. cbn [app]. auto.
  - unfold of_sheets. rewrite find_snoc. cbn [sh_path]. destruct (Nat.eqb file p) eqn:E.
    + apply Nat.eqb_eq in E. subst file. rewrite Hf. cbn [sh_conds app].
      set (A := flat_map (of_call p) t1). set (B := flat_map (of_call p) t2). set (C := flat_map (of_call p) a).
      set (R := opt (c_layer rule)).
      apply fit_incl; [|rewrite !app_length; lia].
      intros n F. rewrite !Forall_app in *. tauto.
    + cbn [app]. set (A := flat_map (of_call p) t1). set (B := flat_map (of_call p) t2). set (C := flat_map (of_call p) a).
      assert ((match find_sheet p (l_sheets st) with Some e => Some e | None => None end) = find_sheet p (l_sheets st)) as ->
        by (destruct (find_sheet p (l_sheets st)); reflexivity).
      apply fit_incl; [|rewrite !app_length; lia].
      intros n F. rewrite !Forall_app in *. tauto.
Qed.

Lemma run_fit : forall p sched st l, load_run sched st = Some (LState l []) -> fit (demands p st).
Proof.
  intros p. induction sched as [|k sched IH]; intros st l H; cbn in H.
  - inversion H; subst. unfold demands. cbn. rewrite app_nil_r. unfold of_sheets. destruct (find_sheet p l) as [s|].
    + destruct (c_layer (sh_conds s)) as [x|]; [exists x|exists None]; cbn; auto.
    + exists None. cbn. auto.
  - destruct (load_step st k) as [st1|] eqn:E; [|discriminate]. eapply step_fit; [exact E|]. eapply IH. exact H.
Qed.

(** The moment a file is read. *)
Lemma when_read : forall s sched st l, load_run sched st = Some (LState l []) ->
  ~ In s (map sh_path (l_sheets st)) -> In s (map sh_path l) ->
  exists rule rs a sched' st', read s = Some rs /\ calls_of rule rs = Some a /\
    load_run sched' st' = Some (LState l []) /\ exists t, l_todo st' = t ++ a.
Proof.
  intros s. induction sched as [|k sched IH]; intros st l H N I; cbn in H.
  - inversion H; subst. contradiction.
  - destruct (load_step st k) as [st1|] eqn:E; [|discriminate].
    pose proof (step_split _ _ _ E) as X. inversion X as [file rule t1 t2 e c Ht Hf Hm Es|file rule t1 t2 rs a Ht Hf Hr Ha Es].
    + apply (IH st1 l H); [|exact I]. rewrite Es. cbn [l_sheets]. rewrite update_paths. exact N.
    + destruct (Nat.eq_dec file s) as [->|D].
      * exists rule, rs, a, sched, st1. split; [exact Hr|]. split; [exact Ha|]. split; [exact H|].
        rewrite Es. cbn [l_todo]. eauto.
      * apply (IH st1 l H); [|exact I]. rewrite Es. cbn [l_sheets]. rewrite map_app, in_app_iff. cbn. intros [Q|[Q|[]]]; auto.
Qed.

Lemma import_calls_app : forall rule a b x, import_calls rule (a ++ b) = Some x ->
  exists y z, import_calls rule a = Some y /\ import_calls rule b = Some z /\ x = y ++ z.
Proof.
  intros rule. induction a as [|r a IH]; intros b x H; cbn [app BundleModel.import_calls] in *.
  - exists [], x. auto.
  - destruct r as [t c| | |]; try (apply IH; exact H).
    destruct (nested_conds rule c) as [c'|]; [|discriminate]. destruct t as [p|u|]; [| |discriminate].
    + destruct (import_calls rule (a ++ b)) as [x'|] eqn:E; [|discriminate]. cbn in H. inversion H; subst.
      destruct (IH _ _ E) as (y & z & Y & Z & ->). exists (Call p c' :: y), z. rewrite Y. auto.
    + apply IH. exact H.
Qed.

(** Where an import rule of the list stands. *)
Lemma imports_split : forall (rs : list srule) l1 p c l2, imports_in rs = l1 ++ (p, c) :: l2 ->
  exists r1 r2, rs = r1 ++ SImport (TFile p) c :: r2 /\ imports_in r1 = l1 /\ imports_in r2 = l2.
Proof.
  induction rs as [|r rs IH]; intros l1 p c l2 H; cbn in H; [destruct l1; discriminate|].
  destruct r as [[q|u|] cq| | |];
    try (destruct (IH _ _ _ _ H) as (r1 & r2 & -> & E1 & E2); match goal with |- context[?x :: r1 ++ _] => exists (x :: r1), r2 end; auto).
  destruct l1 as [|x l1]; cbn in H.
  - inversion H; subst. exists [], rs. auto.
  - inversion H; subst. destruct (IH _ _ _ _ H2) as (r1 & r2 & -> & E1 & E2).
    exists (SImport (TFile q) cq :: r1), r2. cbn. rewrite E1. auto.
Qed.

Theorem layer_conflict : forall sched l s p c1 c2 l1 l2 l3 a b,
  loads sched l -> reach read css_modules entry s ->
  imports read s = l1 ++ (p, c1) :: l2 ++ (p, c2) :: l3 ->
  c_layer c1 = Some a -> c_layer c2 = Some b -> a = b /\ a <> None.
Proof.
  intros sched l s p c1 c2 l1 l2 l3 a b HL HR HI A B.
  pose proof (loads_files _ _ _ _ _ _ _ _ _ _ _ HL) as [_ HF]. apply HF in HR.
  destruct (when_read s sched load_init l HL) as (rule & rs & cl & sched' & st' & Hr & Hc & Hrun & t & Ht); [intros []|exact HR|].
  unfold BundleSpec.imports in HI. rewrite Hr in HI.
  apply imports_split in HI. destruct HI as (r1 & r2 & -> & _ & HI).
  apply imports_split in HI. destruct HI as (r3 & r4 & -> & _ & _).
  pose proof (run_fit p _ _ _ Hrun) as F. unfold demands in F. rewrite Ht in F.
  unfold BundleLoadProofs.calls_of in Hc.
  destruct (import_calls rule _) as [x|] eqn:Ex; [|discriminate].
  destruct (if css_modules then _ else _) as [y|]; [|discriminate]. inversion Hc; subst cl. clear Hc.
  apply import_calls_app in Ex. destruct Ex as (x1 & x2 & _ & Ex & ->). cbn [BundleModel.import_calls] in Ex.
  destruct (nested_conds rule c1) as [n1|] eqn:N1; [|discriminate].
  destruct (import_calls rule (r3 ++ _)) as [x3|] eqn:Ex3; [|discriminate]. cbn in Ex. inversion Ex; subst x2. clear Ex.
  apply import_calls_app in Ex3. destruct Ex3 as (x4 & x5 & _ & Ex & ->). cbn [BundleModel.import_calls] in Ex.
  destruct (nested_conds rule c2) as [n2|] eqn:N2; [|discriminate].
  destruct (import_calls rule r4) as [x6|]; [|discriminate]. cbn in Ex. inversion Ex; subst x5. clear Ex.
  destruct F as (n & F & L). rewrite !flat_map_app in F, L. cbn [flat_map] in F, L. rewrite !flat_map_app in F, L. cbn [flat_map] in F, L.
  rewrite !of_call_eq, !Nat.eqb_refl in F, L.
  assert (K : forall c nn, nested_conds rule c = Some nn -> forall x, c_layer c = Some x ->
     match c_layer rule with
     | None => c_layer nn = Some x
     | Some (Some r) => exists x', x = Some x' /\ c_layer nn = Some (Some (r ++ x'))
     | Some None => False
     end).
  { intros c nn Hn x Hx. unfold BundleModel.nested_conds in Hn. destruct (m_and _ _) as [m|]; [|discriminate].
    rewrite Hx in Hn. destruct (c_layer rule) as [[r|]|]; destruct x as [x|]; cbn in Hn; try discriminate; inversion Hn; cbn; eauto. }
  pose proof (K _ _ N1 _ A) as K1. pose proof (K _ _ N2 _ B) as K2. clear K.
  rewrite !Forall_app in F.
  destruct (c_layer rule) as [[r|]|]; [| |].
  - destruct K1 as (a' & -> & K1). destruct K2 as (b' & -> & K2). rewrite K1, K2 in F. cbn [opt] in F.
    destruct F as (_ & _ & (_ & F1 & _ & F2 & _) & _). inversion F1; subst. inversion F2; subst.
    match goal with H : Some (r ++ _) = Some (r ++ _) |- _ => inversion H as [Q] end.
    apply app_inv_head in Q. subst. split; [reflexivity|discriminate].
  - contradiction.
  - rewrite K1, K2 in F, L. cbn [opt] in F, L.
    destruct F as (_ & _ & (_ & F1 & _ & F2 & _) & _). inversion F1; subst. inversion F2; subst. split; [reflexivity|].
    intros ->. specialize (L eq_refl). rewrite ?app_length in L. cbn in L. rewrite ?app_length in L. cbn in L. lia.
Qed.
End Layer.
