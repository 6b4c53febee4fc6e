(** * Proofs about whole bundles: from sheet indices to files *)
From Coq Require Import List Bool Arith String Lia.
From Verif Require Import BundleModel BundleSpec BundleLoadProofs BundleCondProofs BundleOrderProofs
  BundleInlineProofs BundleBrowserProofs BundleRenameProofs.
Import ListNotations.

Section Glue.
Context {M S : Type}.
Notation srule := (srule M S).
Notation conds := (conds M S).
Notation sheet := (sheet M S).
Variable m_empty : M.
Variable m_is_empty : M -> bool.
Variable m_and : M -> M -> option M.
Variable m_or : M -> M -> M.
Variable s_and s_or : S -> S -> S.
Variable read : path -> option (list srule).
Variable css_modules : bool.
Variable entry : path.
Notation loads := (loads M S m_empty m_is_empty m_and m_or s_and s_or read css_modules entry).
Notation bundle_sheets := (bundle_sheets M S m_empty css_modules).
Notation imports := (imports read).
Notation composes := (composes read css_modules).
Notation refers := (refers read css_modules).
Notation reach := (reach read css_modules).
Notation no_conds := (no_conds M S m_empty).
Notation run_ind := (run_ind m_empty m_is_empty m_and m_or s_and s_or read css_modules entry).
Notation step_split := (step_split m_empty m_is_empty m_and m_or s_and s_or read css_modules).
Notation inv := (inv read css_modules entry).
Notation inv_init := (inv_init m_empty m_is_empty m_and m_or read css_modules entry).
Notation inv_step := (inv_step m_empty m_is_empty m_and m_or s_and s_or read css_modules entry).
Notation calls_of := (calls_of m_and s_and css_modules).

(** ** Sheets of a successful load *)
Lemma loads_calls : forall sched l s, loads sched l -> In s l ->
    exists rs r a, read (sh_path s) = Some rs /\ sh_rules s = map (prefix_layer M S r) rs /\ calls_of r rs = Some a.
Proof.
  intros sched l s H.
  assert (G : inv (LState l []) /\ forall s, In s (l_sheets (LState l [])) ->
     exists rs r a, read (sh_path s) = Some rs /\ sh_rules s = map (prefix_layer M S r) rs /\ calls_of r rs = Some a).
  { refine (run_ind (fun st => inv st /\ forall s, In s (l_sheets st) ->
     exists rs r a, read (sh_path s) = Some rs /\ sh_rules s = map (prefix_layer M S r) rs /\ calls_of r rs = Some a) _ _ _ _ H).
    - split; [exact inv_init|]. cbn. tauto.
    - intros st k st' [I J] E. split; [exact (inv_step _ _ _ I E)|].
      apply step_split in E. destruct E as [file rule t1 t2 e c Ht Hf Hm ->|file rule t1 t2 rs a Ht Hf Hr Ha ->];
        cbn [l_sheets]; intros x Hx.
      + apply update_in in Hx; [|apply I]. destruct Hx as [[_ Hx]|(Hp & _ & s' & Hs' & Hp' & Hru)]; [auto|].
        destruct (J s' Hs') as (rs & r & a & J1 & J2 & J3). exists rs, r, a. repeat split; congruence.
      + apply in_app_or in Hx as [Hx|[<-|[]]]; [auto|]. exists rs, rule, a. auto. }
  apply G.
Qed.

Lemma prefix_composes : forall r rs, composes_of M S (map (prefix_layer M S r) rs) = composes_of M S rs.
Proof.
  induction rs as [|[t c|ns| |id ts] rs IH]; cbn; auto.
  - destruct (c_layer r) as [[n|]|]; exact IH.
  - congruence.
Qed.
Lemma prefix_deps : forall f r rs, deps_of M S f (map (prefix_layer M S r) rs) = deps_of M S f rs.
Proof.
  induction rs as [|[t c|ns| |id ts] rs IH]; cbn; auto.
  - destruct t; congruence.
  - destruct (c_layer r) as [[n|]|]; exact IH.
Qed.
Lemma prefix_lead : forall r rs, imports_lead rs -> imports_lead (map (prefix_layer M S r) rs).
Proof.
  assert (N : forall r rs, no_imports rs -> no_imports (map (prefix_layer M S r) rs)).
  { induction rs as [|[t c|ns| |id ts] rs IH]; cbn; auto.
    destruct (c_layer r) as [[n|]|]; exact IH. }
  induction rs as [|[t c|ns| |id ts] rs IH]; cbn; auto.
  destruct (c_layer r) as [[n|]|]; exact IH.
Qed.
Lemma calls_no_err : forall r rs a, calls_of r rs = Some a -> no_err (map (prefix_layer M S r) rs).
Proof.
  intros r rs a H. unfold calls_of in H.
  destruct (import_calls M S m_and s_and r rs) as [x|] eqn:E; [|discriminate]. clear H a.
  enough (G : forall r', no_err (map (prefix_layer M S r') rs)) by apply G. intros r'.
  revert x E. induction rs as [|[t c|ns| |id ts] rs IH]; intros x E; cbn in *; auto.
  - destruct (nested_conds M S m_and s_and r c); [|discriminate]. destruct t; [|eauto|discriminate].
    destruct (import_calls M S m_and s_and r rs); [|discriminate]. eauto.
  - destruct (c_layer r') as [[n|]|]; eauto.
  - eauto.
  - eauto.
Qed.

(** ** The same bundle with files in place of indices *)
Section Sheets.
Variables (sched : list nat) (l : list sheet).
Hypothesis HL : loads sched l.

Definition pat (i : nat) : path := match nth_error l i with Some s => sh_path s | None => 0 end.
Definition rulesP (p : path) : list srule := match find_sheet M S p l with Some s => sh_rules s | None => [] end.
Definition condsP (p : path) : conds := match find_sheet M S p l with Some s => sh_conds s | None => no_conds end.
Definition cssP (p : path) : list nat :=
  if css_modules then css_deps_of (fun p => p) (composes_of M S (rulesP p)) else [].
Definition depsP (p : path) : list dep := deps_of M S (fun p => p) (rulesP p).
Notation len := (List.length l).

Lemma loads_nodup : NoDup (map sh_path l). Proof. apply (loads_files _ _ _ _ _ _ _ _ _ _ _ HL). Qed.
Lemma loads_reach : forall p, In p (map sh_path l) <-> reach entry p.
Proof. apply (loads_files _ _ _ _ _ _ _ _ _ _ _ HL). Qed.

Lemma pat_in : forall i, i < len -> exists s, nth_error l i = Some s /\ pat i = sh_path s /\ find_sheet M S (pat i) l = Some s.
Proof.
  intros i Hi. destruct (nth_error l i) as [s|] eqn:E; [|apply nth_error_None in E; lia].
  exists s. unfold pat. rewrite E. repeat split. apply nth_error_In in E.
  pose proof loads_nodup as Hn. clear Hi. unfold find_sheet. revert Hn E. generalize l. clear.
  induction l as [|x r IH]; [intros _ []|]. intros Hn [->|H]; cbn.
  - rewrite Nat.eqb_refl. reflexivity.
  - inversion Hn as [|? ? Hx Hnr]; subst. destruct (Nat.eqb_spec (sh_path x) (sh_path s)) as [E|E].
    + exfalso. apply Hx. rewrite E. apply in_map; assumption.
    + auto.
Qed.
Lemma pat_inj : forall i j, i < len -> j < len -> pat i = pat j -> i = j.
Proof.
  intros i j Hi Hj E.
  destruct (pat_in i Hi) as (a & Ha & Pa & _). destruct (pat_in j Hj) as (b & Hb & Pb & _).
  apply (proj1 (NoDup_nth_error (map sh_path l)) loads_nodup); [rewrite map_length; assumption|].
  rewrite !nth_error_map, Ha, Hb. cbn. congruence.
Qed.
Lemma pat_reach : forall i, i < len -> reach entry (pat i).
Proof.
  intros i Hi. destruct (pat_in i Hi) as (s & Hs & -> & _). apply loads_reach. apply in_map. eapply nth_error_In; eauto.
Qed.
Lemma index_ok : forall p, In p (map sh_path l) -> index M S l p < len /\ pat (index M S l p) = p.
Proof.
  intros p Hp.
  assert (G : forall l : list sheet, In p (map sh_path l) -> exists i s, index_of M S p l = Some i /\ nth_error l i = Some s /\ sh_path s = p).
  { clear. induction l as [|x r IH]; cbn; [tauto|]. intros Hp.
    destruct (Nat.eqb_spec (sh_path x) p) as [E|E]; [exists 0, x; auto|].
    destruct Hp as [Hp|Hp]; [contradiction|]. destruct (IH Hp) as (i & s & H1 & H2 & H3).
    exists (Datatypes.S i), s. rewrite H1. auto. }
  destruct (G l Hp) as (i & s & H1 & H2 & H3). unfold index, pat. rewrite H1, H2. split; [|assumption].
  apply nth_error_Some. congruence.
Qed.
Lemma sheet_find : forall p, reach entry p -> exists s, find_sheet M S p l = Some s /\ In s l /\ sh_path s = p.
Proof.
  intros p Hp. apply loads_reach in Hp. destruct (find_sheet M S p l) as [s|] eqn:E.
  - apply find_sheet_in in E. exists s. intuition.
  - apply find_sheet_none in E. contradiction.
Qed.
Lemma rulesP_read : forall p, reach entry p -> exists rs r a, read p = Some rs /\ rulesP p = map (prefix_layer M S r) rs /\ calls_of r rs = Some a.
Proof.
  intros p Hp. destruct (sheet_find p Hp) as (s & Hf & Hin & <-). unfold rulesP. rewrite Hf.
  exact (loads_calls _ _ _ HL Hin).
Qed.
Lemma css_files : forall ts, css_deps_of (fun p => p) ts = files ts.
Proof. induction ts as [|[p|u|] ts IH]; cbn; first [reflexivity | exact IH | f_equal; exact IH]. Qed.
Lemma css_map : forall f ts, css_deps_of f ts = map f (files ts).
Proof. induction ts as [|[p|u|] ts IH]; cbn; first [reflexivity | exact IH | f_equal; exact IH]. Qed.
Lemma cssP_composes : forall p, reach entry p -> cssP p = composes p.
Proof.
  intros p Hp. destruct (rulesP_read p Hp) as (rs & r & a & H1 & H2 & _).
  rewrite (composes_read _ _ _ _ H1). unfold cssP. rewrite H2, prefix_composes, css_files. reflexivity.
Qed.
Lemma deps_imports : forall rs : list srule, dep_files (deps_of M S (fun p => p) rs) = map fst (imports_in rs).
Proof. induction rs as [|[[p|u|] c|ns| |id ts] rs IH]; cbn; first [reflexivity | exact IH | f_equal; exact IH]. Qed.
Lemma depsP_imports : forall p, reach entry p -> dep_files (depsP p) = map fst (imports p).
Proof.
  intros p Hp. destruct (rulesP_read p Hp) as (rs & r & a & H1 & H2 & _).
  unfold depsP, imports. rewrite H1, H2, prefix_deps. apply deps_imports.
Qed.
Lemma refers_edge : forall p q, reach entry p -> (edge cssP depsP p q <-> refers p q).
Proof.
  intros p q Hp. unfold edge, edges. rewrite (cssP_composes p Hp), (depsP_imports p Hp), in_app_iff, in_map_iff.
  unfold refers, imports_file. split.
  - intros [H|([x c] & E & H)]; [auto|]. left. exists c. cbn in E. subst. assumption.
  - intros [[c H]|H]; [|auto]. right. exists (q, c). auto.
Qed.
Lemma unreached_edge : forall p, ~ reach entry p -> edges cssP depsP p = [].
Proof.
  intros p Hp. unfold edges, cssP, depsP, rulesP.
  assert (find_sheet M S p l = None) as ->.
  { destruct (find_sheet M S p l) as [s|] eqn:E; [|reflexivity]. exfalso. apply Hp, loads_reach.
    apply find_sheet_in in E as [E <-]. apply in_map; assumption. }
  destruct css_modules; reflexivity.
Qed.
Lemma greach_reach : forall p, greach cssP depsP entry p <-> reach entry p.
Proof.
  intros p; split.
  - assert (G : forall e p, greach cssP depsP e p -> e = entry -> reach entry p); [|intros H; exact (G _ _ H eq_refl)].
    clear p. intros e p H. induction H as [s|s m d H IH He]; intros E; [subst; constructor|]. specialize (IH E).
    econstructor; [exact IH|]. apply refers_edge; assumption.
  - induction 1 as [|s d H IH He]; [constructor|]. econstructor; [exact IH|]. apply refers_edge; assumption.
Qed.

Lemma rules_ok : forall i, i < len -> rulesP (pat i) = nth_rules M S l i.
Proof. intros i Hi. destruct (pat_in i Hi) as (s & Hs & _ & Hf). unfold rulesP, nth_rules. rewrite Hf, Hs. reflexivity. Qed.
Lemma conds_ok : forall i, i < len -> condsP (pat i) = sheet_conds M S m_empty l i.
Proof. intros i Hi. destruct (pat_in i Hi) as (s & Hs & _ & Hf). unfold condsP, sheet_conds. rewrite Hf, Hs. reflexivity. Qed.
Lemma target_known : forall p q, reach entry p -> In q (edges cssP depsP p) -> In q (map sh_path l).
Proof. intros p q Hp Hq. apply loads_reach. econstructor; [exact Hp|]. apply (refers_edge p q Hp). exact Hq. Qed.
Lemma css_ok : forall i, i < len ->
    cssP (pat i) = map pat (sheet_css M S css_modules l i) /\ Forall (fun d => d < len) (sheet_css M S css_modules l i).
Proof.
  intros i Hi. pose proof (fun q H => target_known (pat i) q (pat_reach i Hi) (in_or_app _ _ _ (or_introl H))) as Hk.
  revert Hk. unfold cssP, sheet_css. rewrite (rules_ok i Hi). destruct css_modules; [|cbn; auto].
  rewrite css_files, css_map. generalize (files (composes_of M S (nth_rules M S l i))). intros ps Hk. split.
  - rewrite map_map. rewrite <- (map_id ps) at 1. apply map_ext_in. intros p Hp. symmetry. apply index_ok; auto.
  - apply Forall_forall. intros d Hd. apply in_map_iff in Hd as (p & <- & Hp). apply index_ok; auto.
Qed.
Lemma deps_ok : forall i, i < len ->
    depsP (pat i) = map (ren_dep pat) (sheet_deps M S l i) /\ Forall (fun d => d < len) (dep_files (sheet_deps M S l i)).
Proof.
  intros i Hi. pose proof (fun q H => target_known (pat i) q (pat_reach i Hi) (in_or_app _ _ _ (or_intror H))) as Hk.
  revert Hk. unfold depsP, sheet_deps. rewrite (rules_ok i Hi).
  generalize (nth_rules M S l i). induction l0 as [|[[p|u|] c|ns| |id ts] rs IH]; cbn; intros Hk; auto.
  - destruct (IH (fun q H => Hk q (or_intror H))) as [H1 H2].
    destruct (index_ok p (Hk p (or_introl eq_refl))) as [H3 H4].
    split; [rewrite H4; congruence|]. constructor; assumption.
  - destruct (IH Hk) as [H1 H2]. split; [congruence|assumption].
Qed.
Lemma entry_ok : 0 < len /\ pat 0 = entry.
Proof.
  destruct (loads_head _ _ _ _ _ _ _ _ _ _ _ HL) as (s & r & E & Hs). unfold pat. rewrite E. cbn. split; [lia|assumption].
Qed.

(** The bundle in terms of files *)
Definition bundleP (n : nat) : ires M S :=
  match order entry cssP depsP n with
  | None => IFuel
  | Some st => inline M S m_empty entry cssP depsP rulesP condsP (o_parent st) n
  end.
End Sheets.

(** The index-level bundle of [l] is the file-level bundle of any [l'] with the same sheets. *)
Lemma bundle_ren : forall sched l cssF depsF rulesF condsF, loads sched l ->
    (forall p, reach entry p -> cssF p = cssP l p /\ depsF p = depsP l p /\ rulesF p = rulesP l p /\ condsF p = condsP l p) ->
    forall n,
    iirel (List.length l) (pat l) (bundle_sheets n l)
      (match order entry cssF depsF n with
       | None => IFuel
       | Some st => inline M S m_empty entry cssF depsF rulesF condsF (o_parent st) n
       end).
Proof.
  intros sched l cssF depsF rulesF condsF HL HF n. destruct (entry_ok sched l HL) as [He Ep].
  assert (C : forall i, i < List.length l -> cssF (pat l i) = map (pat l) (sheet_css M S css_modules l i)
                       /\ Forall (fun d => d < List.length l) (sheet_css M S css_modules l i)).
  { intros i Hi. destruct (HF _ (pat_reach _ _ HL i Hi)) as [-> _]. exact (css_ok _ _ HL i Hi). }
  assert (D : forall i, i < List.length l -> depsF (pat l i) = map (ren_dep (pat l)) (sheet_deps M S l i)
                       /\ Forall (fun d => d < List.length l) (dep_files (sheet_deps M S l i))).
  { intros i Hi. destruct (HF _ (pat_reach _ _ HL i Hi)) as (_ & -> & _). exact (deps_ok _ _ HL i Hi). }
  assert (R : forall i, i < List.length l -> rulesF (pat l i) = nth_rules M S l i).
  { intros i Hi. destruct (HF _ (pat_reach _ _ HL i Hi)) as (_ & _ & -> & _). exact (rules_ok _ _ HL i Hi). }
  assert (K : forall i, i < List.length l -> condsF (pat l i) = sheet_conds M S m_empty l i).
  { intros i Hi. destruct (HF _ (pat_reach _ _ HL i Hi)) as (_ & _ & _ & ->). exact (conds_ok _ _ HL i Hi). }
  unfold BundleModel.bundle_sheets, order, inline. rewrite <- Ep.
  pose proof (order_ren (List.length l) (pat l) (pat_inj _ _ HL) _ _ _ _ C D n 0
    (OState (fun _ => (0, 0)) []) (OState (fun _ => (pat l 0, 0)) []) He) as HO.
  specialize (HO ltac:(constructor; cbn; auto)).
  destruct (order_process (sheet_css M S css_modules l) (sheet_deps M S l) n 0 _) as [a|],
    (order_process cssF depsF n (pat l 0) _) as [b|]; cbn in HO; try contradiction; [|exact I].
  destruct HO as [_ _ HP].
  apply (inline_ren m_empty (List.length l) (pat l) (pat_inj _ _ HL) _ _ _ _ _ _ _ _ C D R K _ _ HP n 0); [assumption|].
  constructor; cbn; auto.
Qed.
Lemma bundleP_ren : forall sched l, loads sched l -> forall n,
    iirel (List.length l) (pat l) (bundle_sheets n l) (bundleP l n).
Proof. intros sched l HL n. apply (bundle_ren sched l); auto. Qed.
End Glue.
