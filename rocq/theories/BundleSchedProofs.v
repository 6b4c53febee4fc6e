(** * Proofs about schedules *)
From Coq Require Import List Bool Arith String Lia Permutation.
From Verif Require Import BundleModel BundleSpec BundleLoadProofs BundleRenameProofs BundleProofs BundleMainProofs.
Import ListNotations.

Section Sched.
Context {M S : Type}.
Notation srule := (srule M S).
Notation conds := (conds M S).
Notation sheet := (sheet M S).
Notation call := (call M S).
Notation lstate := (lstate M S).
Variable m_empty : M.
Variable m_is_empty : M -> bool.
Variable m_and : M -> M -> option M.
Variable m_or : M -> M -> M.
Variable s_and s_or : S -> S -> S.
Variable read : path -> option (list srule).
Variable css_modules : bool.
Variable entry : path.
Notation load_step := (load_step M S m_empty m_is_empty m_and m_or s_and s_or read css_modules).
Notation load_run := (load_run M S m_empty m_is_empty m_and m_or s_and s_or read css_modules).
Notation load_init := (load_init M S m_empty entry).
Notation loads := (loads M S m_empty m_is_empty m_and m_or s_and s_or read css_modules entry).
Notation merge_conds := (merge_conds M S m_empty m_is_empty m_or s_or).
Notation nested_conds := (nested_conds M S m_and s_and).
Notation bundle_sheets := (bundle_sheets M S m_empty css_modules).
Notation imports := (imports read).
Notation composes := (composes read css_modules).
Notation refs := (refs read css_modules).
Notation reach := (reach read css_modules).
Notation no_conds := (no_conds M S m_empty).
Notation inv := (inv read css_modules entry).
Notation inv_init := (inv_init m_empty m_is_empty m_and m_or read css_modules entry).
Notation inv_step := (inv_step m_empty m_is_empty m_and m_or s_and s_or read css_modules entry).
Notation run_ind := (run_ind m_empty m_is_empty m_and m_or s_and s_or read css_modules entry).
Notation step_split := (step_split m_empty m_is_empty m_and m_or s_and s_or read css_modules).
Notation calls_of := (calls_of m_and s_and css_modules).
Notation calls_of_in := (calls_of_in m_and s_and read css_modules).
Notation calls_of_import := (calls_of_import m_and s_and read css_modules).
Notation calls_of_composes := (calls_of_composes m_and s_and read css_modules).
Notation prefix_layer := (prefix_layer M S).
Notation loads_reach := (loads_reach m_empty m_is_empty m_and m_or s_and s_or read css_modules entry).

(** ** Equal sheets give equal bundles *)
Lemma observe_ren : forall sched l r r', loads sched l -> iirel (List.length l) (pat l) r r' ->
    observe l r = match r' with
                  | IOk st => Bundled (map (emitted Some) (i_out st))
                  | IErr => Failed
                  | IFuel => Running
                  end.
Proof.
  intros sched l r r' HL H. destruct r as [st| |], r' as [st'| |]; cbn in H; try contradiction; try reflexivity.
  destruct H as [_ _ _ _ H1 H2]. cbn. rewrite H1, map_map. f_equal. apply map_ext_in. intros it Hin.
  rewrite Forall_forall in H2. specialize (H2 _ Hin).
  pose proof (fun i => names_pat m_empty m_is_empty m_and m_or s_and s_or read css_modules entry sched l i HL) as N.
  destruct it; cbn in *; rewrite (N _ H2); reflexivity.
Qed.
Lemma find_some_in : forall p l (s : sheet), NoDup (map sh_path l) -> In s l -> sh_path s = p -> find_sheet M S p l = Some s.
Proof.
  induction l as [|x l IH]; [intros s _ []|]. intros s Hn [->|Hs] Hp; cbn.
  - unfold find_sheet; cbn. rewrite Hp, Nat.eqb_refl. reflexivity.
  - inversion Hn as [|? ? Hx Hnr]; subst. unfold find_sheet; cbn.
    destruct (Nat.eqb_spec (sh_path x) (sh_path s)) as [E|E].
    + exfalso. apply Hx. rewrite E. apply in_map; assumption.
    + apply IH; auto.
Qed.
Lemma same_bundle : forall s1 l1 s2 l2, loads s1 l1 -> loads s2 l2 ->
    (forall a b, In a l1 -> In b l2 -> sh_path a = sh_path b -> sh_conds a = sh_conds b /\ sh_rules a = sh_rules b) ->
    forall n, observe l1 (bundle_sheets n l1) = observe l2 (bundle_sheets n l2).
Proof.
  intros s1 l1 s2 l2 H1 H2 HA n.
  pose proof (bundleP_ren m_empty m_is_empty m_and m_or s_and s_or read css_modules entry s1 l1 H1 n) as R1.
  pose proof (bundle_ren m_empty m_is_empty m_and m_or s_and s_or read css_modules entry s2 l2
                (cssP css_modules l1) (depsP l1) (rulesP l1) (condsP m_empty l1) H2) as R2.
  assert (G : forall p, reach entry p -> rulesP l1 p = rulesP l2 p /\ condsP m_empty l1 p = condsP m_empty l2 p).
  { intros p Hp.
    destruct (sheet_find m_empty m_is_empty m_and m_or s_and s_or read css_modules entry _ _ H1 p Hp) as (a & Fa & Ia & Pa).
    destruct (sheet_find m_empty m_is_empty m_and m_or s_and s_or read css_modules entry _ _ H2 p Hp) as (b & Fb & Ib & Pb).
    destruct (HA a b Ia Ib) as [E1 E2]; [congruence|]. unfold rulesP, condsP. rewrite Fa, Fb. auto. }
  rewrite (observe_ren _ _ _ _ H1 R1). symmetry. refine (observe_ren _ _ _ _ H2 (R2 _ n)).
  intros p Hp. destruct (G p Hp) as [E1 E2]. unfold cssP, depsP. rewrite E1, E2. auto.
Qed.

(** ** How often a file is named *)
Definition named (st : lstate) : Prop :=
  exists done, Permutation (done ++ map call_file (l_todo st)) (entry :: flat_map refs (map sh_path (l_sheets st)))
    /\ incl (map sh_path (l_sheets st)) done.
Lemma calls_refs : forall rule rs p a, read p = Some rs -> calls_of rule rs = Some a -> map call_file a = refs p.
Proof.
  intros rule rs p a Hr H. unfold calls_of in H. unfold refs, BundleSpec.refs.
  rewrite (composes_read _ _ _ _ Hr). unfold imports, BundleSpec.imports. rewrite Hr.
  destruct (import_calls M S m_and s_and rule rs) as [x|] eqn:Ex; [|discriminate].
  destruct (if css_modules then target_calls M S rule (composes_of M S rs) else Some []) as [y|] eqn:Ey; [|discriminate].
  inversion H; subst. rewrite map_app. f_equal.
  - exact (import_calls_files _ _ _ _ _ Ex).
  - destruct css_modules; [exact (target_calls_files _ _ _ Ey)|inversion Ey; reflexivity].
Qed.
Lemma named_init : named load_init.
Proof. exists []. cbn. split; [apply Permutation_refl|intros x []]. Qed.
Lemma named_step : forall st k st', named st -> load_step st k = Some st' -> named st'.
Proof.
  intros st k st' (done & HP & Hi) E. apply step_split in E.
  destruct E as [file rule t1 t2 e c Ht Hf Hm ->|file rule t1 t2 rs a Ht Hf Hr Ha ->]; exists (file :: done); cbn [l_sheets l_todo].
  - rewrite update_paths. split; [|intros x Hx; right; auto].
    eapply Permutation_trans; [|exact HP]. rewrite Ht, map_app, todo_files. cbn.
    rewrite !app_assoc. apply Permutation_middle.
  - split.
    + rewrite !map_app, flat_map_app. cbn [map flat_map sh_path]. rewrite app_nil_r, (calls_refs _ _ _ _ Hr Ha).
      change (entry :: flat_map refs (map sh_path (l_sheets st)) ++ refs file)
        with ((entry :: flat_map refs (map sh_path (l_sheets st))) ++ refs file).
      rewrite app_assoc. apply Permutation_app_tail.
      eapply Permutation_trans; [|exact HP]. rewrite Ht, todo_files. cbn.
      rewrite !app_assoc. apply Permutation_middle.
    + intros x Hx. rewrite map_app in Hx. apply in_app_or in Hx as [Hx|[<-|[]]]; [right; auto|left; reflexivity].
Qed.
Lemma two_of_perm : forall (q : path) (d t : list path) l, Permutation (d ++ t) l -> In q d -> In q t ->
    exists a b c, l = a ++ q :: b ++ q :: c.
Proof.
  unfold path in *. intros q d t l HP Hd Ht.
  assert (Hc : 2 <= count_occ Nat.eq_dec l q).
  { rewrite <- (proj1 (Permutation_count_occ Nat.eq_dec _ _) HP q), count_occ_app.
    apply (count_occ_In Nat.eq_dec) in Hd. apply (count_occ_In Nat.eq_dec) in Ht. lia. }
  assert (H1 : In q l) by (apply (count_occ_In Nat.eq_dec); lia).
  apply in_split in H1 as (a & r & ->).
  destruct (in_dec Nat.eq_dec q r) as [Hr|Hr].
  - apply in_split in Hr as (b & c & ->). exists a, b, c. reflexivity.
  - rewrite count_occ_app in Hc. cbn in Hc. destruct (Nat.eq_dec q q) as [_|]; [|congruence].
    apply (count_occ_not_In Nat.eq_dec) in Hr. rewrite Hr in Hc.
    assert (Ha : In q a) by (apply (count_occ_In Nat.eq_dec); lia).
    apply in_split in Ha as (b & c & ->). exists b, c, r. rewrite <- app_assoc. reflexivity.
Qed.
Lemma known_twice : forall st file rule t1 t2, inv st -> named st -> l_todo st = t1 ++ Call file rule :: t2 ->
    In file (map sh_path (l_sheets st)) -> named_twice read css_modules entry file.
Proof.
  intros st file rule t1 t2 I (done & HP & Hi) Ht Hf.
  destruct (two_of_perm file _ _ _ HP (Hi _ Hf)) as (a & b & c & E).
  { rewrite Ht, todo_files. apply in_or_app; right; left; reflexivity. }
  exists (map sh_path (l_sheets st)), a, b, c. split; [apply I|]. split; [|exact E].
  apply Forall_forall. intros p Hp. apply (v_reach _ _ _ _ I). left; assumption.
Qed.

(** ** Files with a fixed set of conditions *)
Section Fixed.
Variable R : path -> conds.
Hypothesis R_entry : R entry = no_conds.
Hypothesis R_import : forall p q c, reach entry p -> In (q, c) (imports p) -> nested_conds (R p) c = Some (R q).
Hypothesis R_composes : forall p q, reach entry p -> In q (composes p) -> R q = R p.
Hypothesis R_twice : forall q, named_twice read css_modules entry q -> merge_conds (R q) (R q) = Some (R q).
Record fixed (st : lstate) : Prop := {
  f_todo : forall c, In c (l_todo st) -> call_rule c = R (call_file c);
  f_sheets : forall s, In s (l_sheets st) -> sh_conds s = R (sh_path s)
      /\ exists rs a, read (sh_path s) = Some rs /\ sh_rules s = map (prefix_layer (R (sh_path s))) rs
                      /\ calls_of (R (sh_path s)) rs = Some a }.
Lemma fixed_init : fixed load_init.
Proof. constructor; cbn; [|tauto]. intros c [<-|[]]. cbn. auto. Qed.
Lemma fixed_step : forall st k st', inv st /\ named st /\ fixed st -> load_step st k = Some st' -> inv st' /\ named st' /\ fixed st'.
Proof.
  intros st k st' (I & N & F) H. split; [exact (inv_step _ _ _ I H)|]. split; [exact (named_step _ _ _ N H)|].
  destruct F as [F1 F2]. apply step_split in H.
  destruct H as [file rule t1 t2 e c Ht Hf Hm ->|file rule t1 t2 rs a Ht Hf Hr Ha ->].
  - apply find_sheet_in in Hf as [He Hp].
    assert (Er : rule = R file) by (apply (F1 (Call file rule)); rewrite Ht; apply in_or_app; right; left; reflexivity).
    assert (Ec : c = R file).
    { destruct (F2 e He) as [E _]. rewrite E, Hp, Er in Hm. rewrite R_twice in Hm; [congruence|].
      apply (known_twice _ _ _ _ _ I N Ht). rewrite <- Hp. apply in_map; assumption. }
    constructor; cbn [l_sheets l_todo].
    + intros x Hx. apply F1. rewrite Ht. apply in_app_or in Hx as [Hx|Hx]; apply in_or_app; cbn; auto.
    + intros s Hs. apply update_in in Hs; [|apply I]. destruct Hs as [[_ Hs]|(Hsp & Hsc & s' & Hs' & Hp' & Hru)]; [auto|].
      split; [congruence|]. destruct (F2 s' Hs') as [_ X]. rewrite Hp' in X. rewrite Hsp, Hru. exact X.
  - assert (Er : rule = R file) by (apply (F1 (Call file rule)); rewrite Ht; apply in_or_app; right; left; reflexivity).
    assert (Hreach : reach entry file).
    { apply (v_reach _ _ _ _ I). right. rewrite Ht, todo_files. apply in_or_app; right; left; reflexivity. }
    constructor; cbn [l_sheets l_todo].
    + intros x Hx. apply in_app_or in Hx as [Hx|Hx].
      * apply F1. rewrite Ht. apply in_app_or in Hx as [Hx|Hx]; apply in_or_app; cbn; auto.
      * destruct (calls_of_in _ _ _ _ _ Hr Ha Hx) as [(ic & Hi & Hn)|[Hi Hn]].
        -- pose proof (R_import _ _ _ Hreach Hi) as E. rewrite Er in Hn. congruence.
        -- rewrite Hn, Er. symmetry. apply R_composes; assumption.
    + intros s Hs. apply in_app_or in Hs as [Hs|[<-|[]]]; [auto|]. cbn. split; [assumption|].
      exists rs, a. rewrite <- Er. auto.
Qed.
Lemma run_fixed : forall sched st, load_run sched load_init = Some st -> inv st /\ named st /\ fixed st.
Proof. exact (run_ind _ (conj inv_init (conj named_init fixed_init)) fixed_step). Qed.
Lemma fixed_sheets : forall s1 l1 s2 l2, loads s1 l1 -> loads s2 l2 ->
    forall a b, In a l1 -> In b l2 -> sh_path a = sh_path b -> sh_conds a = sh_conds b /\ sh_rules a = sh_rules b.
Proof.
  intros s1 l1 s2 l2 H1 H2 a b Ha Hb E. apply run_fixed in H1 as (_ & _ & [_ F1]). apply run_fixed in H2 as (_ & _ & [_ F2]).
  destruct (F1 a Ha) as (A1 & rs & x & A2 & A3 & _). destruct (F2 b Hb) as (B1 & rs' & x' & B2 & B3 & _).
  rewrite E in *. split; congruence.
Qed.
(** if one schedule succeeds, no other one can fail *)
Lemma fixed_progress : forall s1 l1 sched st k, loads s1 l1 -> load_run sched load_init = Some st ->
    k < List.length (l_todo st) -> load_step st k <> None.
Proof.
  intros s1 l1 sched st k H1 H Hk. pose proof (proj1 (loads_files _ _ _ _ _ _ _ _ _ _ _ H1)) as _.
  pose proof (loads_reach _ _ H1) as HR.
  apply run_fixed in H1 as (_ & _ & [_ F1]). apply run_fixed in H as (I & N & [G1 G2]).
  unfold load_step. destruct (nth_error (l_todo st) k) as [[file rule]|] eqn:Ek; [|apply nth_error_None in Ek; lia].
  assert (Hin : In (Call file rule) (l_todo st)) by (eapply nth_error_In; eauto).
  pose proof (G1 _ Hin) as Er. cbn in Er.
  destruct (find_sheet M S file (l_sheets st)) as [e|] eqn:Ef.
  - apply find_sheet_in in Ef as [He Hp]. destruct (G2 e He) as [E _]. rewrite E, Hp, Er.
    apply in_split in Hin as (t1 & t2 & Ht). rewrite R_twice; [discriminate|].
    apply (known_twice _ _ _ _ _ I N Ht). rewrite <- Hp. apply in_map; assumption.
  - assert (Hr : In file (map sh_path l1)).
    { apply HR. apply (v_reach _ _ _ _ I). right. apply in_map_iff. exists (Call file rule); auto. }
    apply in_map_iff in Hr as (s & Hs & Hsin). destruct (F1 s Hsin) as (_ & rs & a & R1 & _ & R3). rewrite Hs in *.
    cbn [l_sheets] in *. rewrite R1. unfold calls_of in R3. rewrite Er.
    destruct (import_calls M S m_and s_and (R file) rs); [|discriminate].
    destruct (if css_modules then target_calls M S (R file) (composes_of M S rs) else Some []); [discriminate|discriminate].
Qed.
End Fixed.

(** ** No conditions *)
Lemma unconditional_fixed : m_is_empty m_empty = true -> m_and m_empty m_empty = Some m_empty ->
    (forall p q c, reach entry p -> In (q, c) (imports p) -> c = no_conds) ->
    (forall p q c, reach entry p -> In (q, c) (imports p) -> nested_conds no_conds c = Some no_conds)
    /\ merge_conds no_conds no_conds = Some no_conds.
Proof.
  intros He Ha HU. split.
  - intros p q c Hp Hc. rewrite (HU _ _ _ Hp Hc). unfold nested_conds. cbn. rewrite Ha. reflexivity.
  - unfold merge_conds, no_conds. cbn. rewrite He. reflexivity.
Qed.

(** ** Every file named once *)
Section Single.
Hypothesis HS : forall q, ~ named_twice read css_modules entry q.
Definition settled (st : lstate) (c : call) : Prop :=
  In c (l_todo st) \/ exists s, In s (l_sheets st) /\ sh_path s = call_file c /\ sh_conds s = call_rule c.
Record sinv (st : lstate) : Prop := {
  s_entry : settled st (Call entry no_conds);
  s_calls : forall s, In s (l_sheets st) -> exists rs a, read (sh_path s) = Some rs
      /\ calls_of (sh_conds s) rs = Some a /\ forall c, In c a -> settled st c }.
Lemma sinv_init : sinv load_init.
Proof. constructor; cbn; [left; left; reflexivity|tauto]. Qed.
Lemma sinv_step : forall st k st', inv st /\ named st /\ sinv st -> load_step st k = Some st' -> inv st' /\ named st' /\ sinv st'.
Proof.
  intros st k st' (I & N & F) H. split; [exact (inv_step _ _ _ I H)|]. split; [exact (named_step _ _ _ N H)|].
  destruct F as [F1 F2]. apply step_split in H.
  destruct H as [file rule t1 t2 e c Ht Hf Hm ->|file rule t1 t2 rs a Ht Hf Hr Ha ->].
  - exfalso. apply find_sheet_in in Hf as [He Hp]. apply (HS file). apply (known_twice _ _ _ _ _ I N Ht).
    rewrite <- Hp. apply in_map; assumption.
  - set (st' := LState _ _).
    assert (K : forall c, settled st c -> settled st' c).
    { intros c [Hc|(s & Hs & H1 & H2)].
      - rewrite Ht in Hc. apply in_app_or in Hc as [Hc|[<-|Hc]].
        + left. cbn. rewrite !in_app_iff. auto.
        + right. eexists. split; [cbn; apply in_or_app; right; left; reflexivity|]. auto.
        + left. cbn. rewrite !in_app_iff. auto.
      - right. exists s. split; [cbn; apply in_or_app; auto|auto]. }
    constructor; [auto|]. cbn [l_sheets st']. intros s Hs. apply in_app_or in Hs as [Hs|[<-|[]]].
    + destruct (F2 s Hs) as (rs' & a' & H1 & H2 & H3). exists rs', a'. auto.
    + exists rs, a. cbn [sh_path sh_conds]. split; [assumption|]. split; [assumption|].
      intros c Hc. left. cbn. apply in_or_app; auto.
Qed.
Lemma run_sinv : forall sched st, load_run sched load_init = Some st -> inv st /\ named st /\ sinv st.
Proof. exact (run_ind _ (conj inv_init (conj named_init sinv_init)) sinv_step). Qed.
Lemma single_fixed : forall s1 l1, loads s1 l1 -> exists R : path -> conds,
    R entry = no_conds
    /\ (forall p q c, reach entry p -> In (q, c) (imports p) -> nested_conds (R p) c = Some (R q))
    /\ (forall p q, reach entry p -> In q (composes p) -> R q = R p).
Proof.
  intros s1 l1 H. pose proof (loads_reach _ _ H) as HR. apply run_sinv in H as (I & _ & [F1 F2]).
  pose proof (v_nodup _ _ _ _ I) as Hn. cbn in *.
  exists (fun p => match find_sheet M S p l1 with Some s => sh_conds s | None => no_conds end).
  assert (E : forall c, settled (LState l1 []) c ->
             match find_sheet M S (call_file c) l1 with Some s => sh_conds s | None => no_conds end = call_rule c).
  { intros c [[]|(s & Hs & Hp & Hc)]. cbn in Hs. rewrite (find_some_in _ _ _ Hn Hs Hp). assumption. }
  assert (G : forall p, reach entry p -> exists s, find_sheet M S p l1 = Some s /\ In s l1 /\ sh_path s = p).
  { intros p Hp. apply HR in Hp. apply in_map_iff in Hp as (s & Hs & Hin). exists s.
    split; [apply find_some_in; assumption|auto]. }
  split; [exact (E _ F1)|]. split.
  - intros p q c Hp Hc. destruct (G p Hp) as (s & -> & Hs & Hsp). destruct (F2 s Hs) as (rs & a & H1 & H2 & H3).
    rewrite Hsp in H1. destruct (calls_of_import _ _ _ _ _ _ H1 H2 Hc) as (c' & Hn' & Hin).
    rewrite Hn'. f_equal. symmetry. exact (E _ (H3 _ Hin)).
  - intros p q Hp Hc. destruct (G p Hp) as (s & -> & Hs & Hsp). destruct (F2 s Hs) as (rs & a & H1 & H2 & H3).
    rewrite Hsp in H1. exact (E _ (H3 _ (calls_of_composes _ _ _ _ _ H1 H2 Hc))).
Qed.
End Single.

(** ** The schedule does not matter *)
Lemma unconditional_sched : m_is_empty m_empty = true -> m_and m_empty m_empty = Some m_empty ->
    (forall p q c, reach entry p -> In (q, c) (imports p) -> c = no_conds) ->
    forall s1 l1, loads s1 l1 ->
    (forall s2 l2 n, loads s2 l2 -> observe l1 (bundle_sheets n l1) = observe l2 (bundle_sheets n l2))
    /\ (forall sched st k, load_run sched load_init = Some st -> k < List.length (l_todo st) -> load_step st k <> None).
Proof.
  intros He Ha HU s1 l1 H1. destruct (unconditional_fixed He Ha HU) as [U1 U2].
  split.
  - intros s2 l2 n H2. apply (same_bundle s1 l1 s2 l2); auto.
    exact (fixed_sheets (fun _ => no_conds) eq_refl U1 (fun _ _ _ _ => eq_refl) (fun _ _ => U2) s1 l1 s2 l2 H1 H2).
  - intros sched st k H Hk.
    exact (fixed_progress (fun _ => no_conds) eq_refl U1 (fun _ _ _ _ => eq_refl) (fun _ _ => U2) s1 l1 sched st k H1 H Hk).
Qed.
Lemma single_sched : (forall q, ~ named_twice read css_modules entry q) ->
    forall s1 l1, loads s1 l1 ->
    (forall s2 l2 n, loads s2 l2 -> observe l1 (bundle_sheets n l1) = observe l2 (bundle_sheets n l2))
    /\ (forall sched st k, load_run sched load_init = Some st -> k < List.length (l_todo st) -> load_step st k <> None).
Proof.
  intros HS s1 l1 H1. destruct (single_fixed HS s1 l1 H1) as (R & R1 & R2 & R3).
  assert (R4 : forall q, named_twice read css_modules entry q -> merge_conds (R q) (R q) = Some (R q)) by (intros q H; destruct (HS q H)).
  split.
  - intros s2 l2 n H2. apply (same_bundle s1 l1 s2 l2); auto.
    exact (fixed_sheets R R1 R2 R3 R4 s1 l1 s2 l2 H1 H2).
  - intros sched st k H Hk. exact (fixed_progress R R1 R2 R3 R4 s1 l1 sched st k H1 H Hk).
Qed.
End Sched.
Lemma same_files : forall M S m_empty m_is_empty m_and m_or s_and s_or read css_modules entry s1 l1 s2 l2,
    loads M S m_empty m_is_empty m_and m_or s_and s_or read css_modules entry s1 l1 ->
    loads M S m_empty m_is_empty m_and m_or s_and s_or read css_modules entry s2 l2 ->
    forall p, In p (map sh_path l1) <-> In p (map sh_path l2).
Proof.
  intros M S m_empty m_is_empty m_and m_or s_and s_or read css_modules entry s1 l1 s2 l2 H1 H2 p.
  rewrite (proj2 (loads_files _ _ _ _ _ _ _ _ _ _ _ H1) p), (proj2 (loads_files _ _ _ _ _ _ _ _ _ _ _ H2) p). tauto.
Qed.
