(** * Proofs of the properties of bundles *)
From Coq Require Import List Bool Arith String Lia.
From Verif Require Import MediaModel MediaSpec MediaBoolProofs BundleModel BundleSpec BundleLoadProofs BundleCondProofs BundleOrderProofs
  BundleInlineProofs BundleBrowserProofs BundleRenameProofs BundleProofs BundleFuelProofs.
Import ListNotations.

Section Main.
Context {M S : Type}.
Notation srule := (srule M S).
Notation conds := (conds M S).
Notation sheet := (sheet M S).
Variable m_empty : M.
Variable m_is_empty : M -> bool.
Variable m_and : M -> M -> option M.
Variable m_or : M -> M -> M.
Variable s_and s_or : S -> S -> S.
Variable read : path -> option (list srule).
Variable css_modules : bool.
Variable entry : path.
Notation loads := (loads M S m_empty m_is_empty m_and m_or s_and s_or read css_modules entry).
Notation bundle_sheets := (bundle_sheets M S m_empty css_modules).
Notation imports := (imports read).
Notation composes := (composes read css_modules).
Notation refers := (refers read css_modules).
Notation reach := (reach read css_modules).
Notation below := (below read css_modules).
Notation no_conds := (no_conds M S m_empty).
Notation chain := (chain read css_modules entry).
Notation cssP := (cssP css_modules).
Notation condsP := (condsP m_empty).
Notation bundleP := (bundleP m_empty css_modules entry).
Notation bundleP_ren := (bundleP_ren m_empty m_is_empty m_and m_or s_and s_or read css_modules entry).
Notation greach_reach := (greach_reach m_empty m_is_empty m_and m_or s_and s_or read css_modules entry).
Notation refers_edge := (refers_edge m_empty m_is_empty m_and m_or s_and s_or read css_modules entry).
Notation rulesP_read := (rulesP_read m_empty m_is_empty m_and m_or s_and s_or read css_modules entry).
Notation unreached_edge := (unreached_edge m_empty m_is_empty m_and m_or s_and s_or read css_modules entry).
Notation loads_reach := (loads_reach m_empty m_is_empty m_and m_or s_and s_or read css_modules entry).
Notation cssP_composes := (cssP_composes m_empty m_is_empty m_and m_or s_and s_or read css_modules entry).
Notation depsP_imports := (depsP_imports m_empty m_is_empty m_and m_or s_and s_or read css_modules entry).
Notation pat_in := (pat_in m_empty m_is_empty m_and m_or s_and s_or read css_modules entry).
Notation calls_no_err := (calls_no_err m_and s_and css_modules).

Lemma names_pat : forall sched l i, loads sched l -> i < List.length l -> sheet_name l i = Some (pat l i).
Proof.
  intros sched l i H Hi. destruct (pat_in _ _ H i Hi) as (s & Hs & Hp & _). unfold sheet_name. rewrite Hs, Hp. reflexivity.
Qed.
(** the file-level result behind an index-level one *)
Lemma ok_paths : forall sched l n st, loads sched l -> bundle_sheets n l = IOk st ->
    exists ost st', order entry (cssP l) (depsP l) n = Some ost
      /\ inline M S m_empty entry (cssP l) (depsP l) (rulesP l) (condsP l) (o_parent ost) n = IOk st'
      /\ i_out st' = map (ren_item (pat l)) (i_out st)
      /\ Forall (fun it => item_src it < List.length l) (i_out st).
Proof.
  intros sched l n st HL HB. pose proof (bundleP_ren sched l HL n) as H. rewrite HB in H. unfold bundleP in H.
  destruct (order entry (cssP l) (depsP l) n) as [ost|] eqn:E; [|contradiction].
  destruct (inline _ _ _ _ _ _ _ _ (o_parent ost) n) as [st'| |] eqn:E2; cbn in H; try contradiction.
  exists ost, st'. destruct H as [_ _ _ _ H1 H2]. auto.
Qed.
Lemma from_ren : forall sched l p out, loads sched l -> Forall (fun it : item M S => item_src it < List.length l) out ->
    rules_from p (sheet_name l) out = from p (map (ren_item (pat l)) out).
Proof.
  intros sched l p out HL H. induction H as [|it out Hi H IH]; [reflexivity|]. unfold from in *. cbn [rules_from map].
  rewrite IH. f_equal. destruct it; cbn in Hi; cbn [ren_item]; rewrite (names_pat _ _ _ HL Hi); reflexivity.
Qed.
Lemma order_ren_names : forall sched l out, loads sched l -> Forall (fun it : item M S => item_src it < List.length l) out ->
    body_order (sheet_name l) out = bodies (map (ren_item (pat l)) out).
Proof.
  intros sched l out HL H. induction H as [|it out Hi H IH]; [reflexivity|]. unfold bodies in *. cbn [body_order map].
  destruct it; cbn [ren_item body_order]; cbn in Hi; rewrite ?(names_pat _ _ _ HL Hi); cbn; congruence.
Qed.
Lemma in_layer_prefix : forall (r : conds) rs, map (prefix_layer M S r) rs = in_layer (c_layer r) rs.
Proof.
  intros r rs. unfold in_layer. apply map_ext. intros [t c|ns| |id ts]; unfold prefix_layer; destruct (c_layer r) as [[n|]|]; reflexivity.
Qed.
Definition leads : Prop := forall p rs, reach entry p -> read p = Some rs -> imports_lead rs.
Lemma path_hyps : forall sched l, loads sched l -> leads ->
    (forall p, imports_lead (rulesP l p)) /\ (forall p, no_err (rulesP l p)).
Proof.
  intros sched l HL HW.
  assert (G : forall p, imports_lead (rulesP l p) /\ no_err (rulesP l p)).
  { intros p. unfold rulesP. destruct (find_sheet M S p l) as [s|] eqn:E; [|cbn; auto].
    apply find_sheet_in in E as [Hs Hp].
    destruct (loads_calls m_empty m_is_empty m_and m_or s_and s_or read css_modules entry _ _ _ HL Hs) as (rs & r & a & H1 & H2 & H3).
    rewrite H2. split; [|exact (calls_no_err _ _ _ H3)]. apply prefix_lead. apply (HW (sh_path s)); [|assumption].
    apply (proj1 (loads_reach _ _ HL _)). apply in_map; assumption. }
  split; intros p; apply G.
Qed.

(** ** Which files *)
Lemma at_most_once : forall sched l n st, loads sched l -> leads -> bundle_sheets n l = IOk st ->
    forall p, rules_from p (sheet_name l) (i_out st) = []
      \/ exists rs ly, read p = Some rs /\ rules_from p (sheet_name l) (i_out st) = own_rules (in_layer ly rs).
Proof.
  intros sched l n st HL HW HB p. destruct (ok_paths _ _ _ _ HL HB) as (ost & st' & Ho & Hi & Hout & Hlt).
  destruct (path_hyps _ _ HL HW) as [W1 W2].
  rewrite (from_ren _ _ _ _ HL Hlt), <- Hout.
  destruct (inline_once m_empty entry (cssP l) (depsP l) (rulesP l) (condsP l) (o_parent ost) W1 W2 (fun _ => eq_refl) n st' Hi p)
    as [_ [H|H]]; [auto|].
  destruct (find_sheet M S p l) as [s|] eqn:E.
  - right. apply find_sheet_in in E as [Hs Hp].
    assert (Hr : reach entry p) by (apply (loads_reach _ _ HL); rewrite <- Hp; apply in_map; assumption).
    destruct (rulesP_read _ _ HL p Hr) as (rs & r & a & H1 & H2 & _). exists rs, (c_layer r). split; [assumption|].
    rewrite H, H2, in_layer_prefix. reflexivity.
  - left. rewrite H. unfold rulesP. rewrite E. reflexivity.
Qed.

Section Descend.
Variables (sched : list nat) (l : list sheet).
Hypothesis HL : loads sched l.
Hypothesis HC : no_import_cycle read css_modules entry.
Variables (n : nat) (ost : ostate).
Hypothesis HO : order entry (cssP l) (depsP l) n = Some ost.
Notation V := (o_visited ost).
Notation par := (o_parent ost).

Lemma vis_reach : forall p, In p V <-> reach entry p.
Proof.
  intros p. rewrite <- (greach_reach _ _ HL). split.
  - intros H. exact (order_reached entry (cssP l) (depsP l) (rulesP l) (condsP l) n ost p HO H).
  - apply (order_spec entry (cssP l) (depsP l) (rulesP l) (condsP l) n ost HO).
Qed.
(** an edge to a child that the order phase recorded *)
Inductive pedge (x d : nat) : Prop :=
| PEdge k : In x V -> In d V -> d <> entry -> par d = (x, k) -> nth_error (edges (cssP l) (depsP l) x) k = Some d ->
            (k < List.length (cssP l x) -> before d x V) -> pedge x d.
Inductive ppath : nat -> nat -> Prop :=
| PP_refl d : d <> entry -> ppath d d
| PP_step d s e : ppath s e -> pedge d s -> d <> entry -> ppath d e.
Lemma pedge_refers : forall x d, pedge x d -> refers x d.
Proof.
  intros x d [k Hx _ _ _ H _]. apply (refers_edge _ _ HL); [apply vis_reach; assumption|]. eapply nth_error_In; eauto.
Qed.
Lemma ra_trans : forall a b c, reach_avoiding read css_modules entry a b -> reach_avoiding read css_modules entry b c ->
    reach_avoiding read css_modules entry a c.
Proof. intros a b c Hab Hbc. induction Hbc as [|s d H IH He Hne]; [assumption|]. econstructor; eauto. Qed.
Lemma ppath_avoids : forall a b, ppath a b -> reach_avoiding read css_modules entry a b.
Proof.
  induction 1 as [d Hd|d s e H IH He Hd]; [constructor; assumption|].
  refine (ra_trans _ _ _ _ IH). econstructor; [constructor; assumption| |].
  - apply pedge_refers; assumption.
  - destruct He; assumption.
Qed.
Lemma edge_kind : forall x d, pedge x d -> imports_file read x d \/ before d x V.
Proof.
  intros x d [k Hx Hd Hne Hp Hn Hb]. pose proof (proj1 (vis_reach x) Hx) as Hr.
  destruct (Nat.lt_ge_cases k (List.length (cssP l x))) as [Hk|Hk]; [right; auto|].
  left. unfold edges in Hn. rewrite nth_error_app2 in Hn by assumption. apply nth_error_In in Hn.
  rewrite (depsP_imports _ _ HL x Hr) in Hn. apply in_map_iff in Hn as ([y c] & E & Hin). cbn in E. subst. exists c; assumption.
Qed.
Lemma vis_nodup : NoDup V.
Proof. exact (proj1 (order_spec entry (cssP l) (depsP l) (rulesP l) (condsP l) n ost HO)). Qed.
Lemma ppath_kind : forall a b, ppath a b ->
    (exists x y, ppath a x /\ pedge x y /\ ppath y b /\ imports_file read x y) \/ pos a V <= pos b V.
Proof.
  induction 1 as [d Hd|d s e H IH He Hd]; [right; lia|].
  destruct (edge_kind _ _ He) as [Hi|Hb].
  - left. exists d, s. repeat split; auto. constructor; assumption.
  - destruct IH as [(x & y & H1 & H2 & H3 & H4)|Hle].
    + left. exists x, y. repeat split; auto. econstructor; eauto.
    + right. pose proof (pos_before _ _ _ vis_nodup Hb). lia.
Qed.
(** no cycle of recorded edges *)
Lemma no_ploop : forall x d, pedge x d -> x <> entry -> ppath d x -> False.
Proof.
  intros x d He Hx Hp.
  assert (Hall : forall a b, pedge a b -> imports_file read a b -> ppath b a -> False).
  { intros a b Hab Hi Hba. refine (HC a b _ Hi _).
    - destruct Hab; apply vis_reach; assumption.
    - apply ppath_avoids; assumption. }
  destruct (edge_kind _ _ He) as [Hi|Hb]; [exact (Hall _ _ He Hi Hp)|].
  destruct (ppath_kind _ _ Hp) as [(a & b & H1 & H2 & H3 & H4)|Hle].
  - apply (Hall a b H2 H4). clear - H1 H3 He Hx.
    assert (T : forall a b c, ppath a b -> ppath b c -> ppath a c).
    { clear. intros a b c H. induction H as [d Hd|d s e H IH He Hd]; intros Hc; [assumption|].
      exact (PP_step d s c (IH Hc) He Hd). }
    apply (T _ _ _ H3). econstructor; [exact H1|assumption|assumption].
  - pose proof (pos_before _ _ _ vis_nodup Hb). lia.
Qed.
Lemma has_parent : forall d, In d V -> d <> entry -> exists x, pedge x d.
Proof.
  intros d Hd Hne. destruct (order_spec entry (cssP l) (depsP l) (rulesP l) (condsP l) n ost HO) as (_ & _ & H & _).
  destruct (H d Hd Hne) as (x & k & H1 & H2 & H3 & H4). exists x, k; auto.
Qed.
Lemma all_descend : forall d, In d V -> descends entry (cssP l) (depsP l) par d.
Proof.
  assert (G : forall m seen d, left_in V seen <= m -> In d V -> ~ In d seen -> (forall s, In s seen -> ppath d s) ->
             descends entry (cssP l) (depsP l) par d).
  { induction m as [|m IH]; intros seen d Hm Hd Hns Hs.
    - destruct (Nat.eq_dec d entry) as [->|Hne]; [constructor|].
      pose proof (left_cons V seen d Hd Hns). lia.
    - destruct (Nat.eq_dec d entry) as [->|Hne]; [constructor|].
      destruct (has_parent d Hd Hne) as [x Hx]. pose proof Hx as [k Hxv _ _ Hp Hn _].
      apply (De_child entry _ _ par x k d); [|assumption|assumption].
      destruct (Nat.eq_dec x entry) as [->|Hxe]; [constructor|].
      apply (IH (d :: seen) x).
      + pose proof (left_cons V seen d Hd Hns). lia.
      + assumption.
      + intros [->|Hin]; apply (no_ploop x x Hx Hxe) || apply (no_ploop _ _ Hx Hxe); [constructor; assumption|auto].
      + intros s [<-|Hin]; [econstructor; [|exact Hx|assumption]; constructor; assumption|].
        econstructor; [|exact Hx|assumption]. auto. }
  intros d Hd. apply (G _ [] d (le_n _) Hd); cbn; tauto.
Qed.
End Descend.

Lemma all_emitted : forall sched l n st, loads sched l -> leads -> no_import_cycle read css_modules entry ->
    bundle_sheets n l = IOk st ->
    forall p, reach entry p ->
      exists rs ly, read p = Some rs /\ rules_from p (sheet_name l) (i_out st) = own_rules (in_layer ly rs).
Proof.
  intros sched l n st HL HW HC HB p Hp. destruct (ok_paths _ _ _ _ HL HB) as (ost & st' & Ho & Hi & Hout & Hlt).
  destruct (path_hyps _ _ HL HW) as [W1 W2].
  rewrite (from_ren _ _ _ _ HL Hlt), <- Hout.
  destruct (inline_once m_empty entry (cssP l) (depsP l) (rulesP l) (condsP l) (o_parent ost) W1 W2 (fun _ => eq_refl) n st' Hi p) as [H _].
  rewrite H.
  - destruct (rulesP_read _ _ HL p Hp) as (rs & r & a & H1 & H2 & _). exists rs, (c_layer r). split; [assumption|].
    rewrite H2, in_layer_prefix. reflexivity.
  - refine (all_descend _ _ HL HC n ost Ho p _). apply (vis_reach _ _ HL n ost Ho); assumption.
Qed.

(** ** Termination *)
Lemma filter_length_le : forall (f : nat -> bool) x, List.length (filter f x) <= List.length x.
Proof. intros f. induction x as [|a x IH]; cbn; [lia|]. destruct (f a); cbn; lia. Qed.
Lemma bundle_terminates : forall sched l, loads sched l -> hd_error (composes entry) <> Some entry ->
    exists N, forall n, N <= n -> bundle_sheets n l <> IFuel.
Proof.
  intros sched l HL HE. set (U := map sh_path l).
  assert (HU : forall s d, In s U -> edge (cssP l) (depsP l) s d -> In d U).
  { intros s d Hs He. apply (loads_reach _ _ HL) in Hs. apply (loads_reach _ _ HL). econstructor; [exact Hs|].
    apply (refers_edge _ _ HL); assumption. }
  set (L := List.length U).
  exists (Datatypes.S (L * Datatypes.S L + L) + Datatypes.S L). intros n Hn HB.
  assert (He : In entry U) by (apply (loads_reach _ _ HL); constructor).
  assert (HO : order entry (cssP l) (depsP l) n <> None).
  { apply (order_fuel entry (cssP l) (depsP l) (rulesP l) (condsP l) U HU n entry _ He).
    apply Nat.le_lt_trans with L; [apply filter_length_le|lia]. }
  pose proof (bundleP_ren _ _ HL n) as H. rewrite HB in H. unfold bundleP in H.
  destruct (order entry (cssP l) (depsP l) n) as [ost|] eqn:Ho; [|congruence].
  destruct (inline _ _ _ _ _ _ _ _ (o_parent ost) n) eqn:Ei; cbn in H; try contradiction. clear H.
  pose proof (vis_nodup _ n ost Ho) as HV.
  assert (HVr : forall p, In p (o_visited ost) <-> reach entry p) by (exact (vis_reach _ _ HL n ost Ho)).
  assert (HLe : List.length (o_visited ost) <= L).
  { apply NoDup_incl_length; [assumption|]. intros x Hx. apply (loads_reach _ _ HL), HVr, Hx. }
  pose proof (inline_fuel m_empty (cssP l) (depsP l) (rulesP l) (condsP l) (o_parent ost) (o_visited ost) HV) as F.
  specialize (F ltac:(intros s d Hs Hd; apply HVr; apply HVr in Hs; econstructor; [exact Hs|]; apply (refers_edge _ _ HL); assumption)).
  assert (HB' : forall s k d, In s (o_visited ost) -> nth_error (cssP l s) k = Some d -> o_parent ost d = (s, k) -> before d s (o_visited ost)).
  { intros s k d Hs Hk Hp.
    destruct (order_spec entry (cssP l) (depsP l) (rulesP l) (condsP l) n ost Ho) as (_ & _ & O3 & O4 & _).
    assert (Hv : validp (cssP l) (depsP l) ost d -> before d s (o_visited ost)).
    { intros (x & k' & V1 & V2 & V3 & V4). rewrite Hp in V1. inversion V1; subst x k'. apply V4. apply nth_error_Some. congruence. }
    destruct (Nat.eq_dec d entry) as [->|Hne].
    - destruct O4 as [O4|O4]; [|auto]. exfalso. rewrite Hp in O4. inversion O4; subst s k.
      rewrite (cssP_composes _ _ HL entry (R_refl _ _ _)) in Hk. apply HE. destruct (composes entry); exact Hk.
    - apply Hv, O3; [|assumption]. apply HVr. apply HVr in Hs. econstructor; [exact Hs|].
      apply (refers_edge _ _ HL); [assumption|]. apply in_or_app; left. eapply nth_error_In; eauto. }
  specialize (F HB' n entry (IState [] [] [])).
  unfold inline in Ei. rewrite Ei in F. apply F; [apply HVr; constructor|].
  unfold need, untaken.
  assert (Hf : left_in (o_visited ost) (i_taken (IState [] [] [] : istate M S)) <= List.length (o_visited ost)) by apply filter_length_le.
  revert Hf HLe. generalize (left_in (o_visited ost) (i_taken (IState [] [] [] : istate M S))) (List.length (o_visited ost)) (pos entry (o_visited ost)).
  intros a b c Hab HbL.
  assert (a * Datatypes.S b <= L * Datatypes.S L) by (apply Nat.mul_le_mono; lia). lia.
Qed.

Lemma bundle_result : forall sched l, loads sched l -> hd_error (composes entry) <> Some entry ->
    exists N r, r <> IFuel /\ forall n, N <= n -> bundle_sheets n l = r.
Proof.
  intros sched l HL HE. destruct (bundle_terminates sched l HL HE) as [N HN].
  exists N, (bundle_sheets N l). split; [apply HN; lia|]. intros n Hn. apply bundle_more; [assumption|]. apply HN; lia.
Qed.

(** ** Order *)
Scheme expands_mind := Induction for expands Sort Prop
  with expands_all_mind := Induction for expands_all Sort Prop.
Lemma expands_lexp : forall sched l, loads sched l -> forall p X, expands read p X -> reach entry p ->
    forall lab, exists Y, lexp (depsP l) p lab Y /\ map fst Y = X.
Proof.
  intros sched l HL p X H.
  refine (expands_mind M S read
    (fun p X _ => reach entry p -> forall lab, exists Y, lexp (depsP l) p lab Y /\ map fst Y = X)
    (fun ps X _ => (forall q, In q ps -> reach entry q) -> forall s k, exists Y, lexp_all (depsP l) s k ps Y /\ map fst Y = X)
    _ _ _ p X H); clear p X H.
  - intros p X _ IH Hp lab. destruct (IH) with (s := p) (k := 0) as (Y & H1 & H2).
    + intros q Hq. econstructor; [exact Hp|]. left. apply in_map_iff in Hq as ([q' c] & E & Hq). cbn in E; subst. exists c; assumption.
    + exists (Y ++ [(p, lab)]). split; [constructor; rewrite (depsP_imports _ _ HL p Hp); exact H1|].
      rewrite map_app, H2. reflexivity.
  - intros _ s k. exists []. split; [constructor|reflexivity].
  - intros p r X X' _ IH1 _ IH2 Hr s k.
    destruct (IH1 (Hr _ (or_introl eq_refl)) (s, k)) as (Y & H1 & H2).
    destruct (IH2 (fun q H => Hr q (or_intror H)) s (k + 1)) as (Y' & H3 & H4).
    exists (Y ++ Y'). split; [constructor; assumption|]. etransitivity; [apply map_app|]. exact (f_equal2 (@app path) H2 H4).
Qed.
Lemma bundle_order : forall sched l n st X, loads sched l -> leads ->
    (forall p, reach entry p -> composes p = []) ->
    (forall p x s, shared read css_modules entry p -> below p x -> reach entry s -> imports_file read s x -> s = p \/ below p s) ->
    expands read entry X -> bundle_sheets n l = IOk st ->
    body_order (sheet_name l) (i_out st) = browser_order X.
Proof.
  intros sched l n st X HL HW HN HP HX HB. destruct (ok_paths _ _ _ _ HL HB) as (ost & st' & Ho & Hi & Hout & Hlt).
  destruct (path_hyps _ _ HL HW) as [W1 W2].
  rewrite (order_ren_names _ _ _ HL Hlt), <- Hout. unfold browser_order.
  destruct (expands_lexp _ _ HL _ _ HX (R_refl _ _ _) (entry, 0)) as (Y & HY & <-).
  assert (HN' : forall s, cssP l s = []).
  { intros s. destruct (in_dec Nat.eq_dec s (map sh_path l)) as [Hs|Hs].
    - apply (loads_reach _ _ HL) in Hs. rewrite (cssP_composes _ _ HL s Hs). auto.
    - assert (E : edges (cssP l) (depsP l) s = []).
      { apply (unreached_edge _ _ HL). intros H. apply Hs, (loads_reach _ _ HL), H. }
      unfold edges in E. apply app_eq_nil in E. tauto. }
  assert (Hge : forall a b, reach entry a -> greach (cssP l) (depsP l) a b -> BundleSpec.reach read css_modules a b /\ reach entry b).
  { intros a b Ha H. induction H as [s|s m d H IH He]; [split; [constructor|assumption]|].
    destruct (IH Ha) as [IH1 IH2]. apply (refers_edge _ _ HL) in He; [|assumption].
    split; [econstructor; eauto|econstructor; eauto]. }
  assert (Heg : forall a b, reach entry a -> BundleSpec.reach read css_modules a b -> greach (cssP l) (depsP l) a b /\ reach entry b).
  { intros a b Ha H. induction H as [|s d H IH He]; [split; [constructor|assumption]|].
    destruct IH as [IH1 IH2].
    split; [|econstructor; eauto]. apply (refers_edge _ _ HL) in He; [|assumption]. econstructor; eauto. }
  assert (Him : forall s x, reach entry s -> In x (dep_files (depsP l s)) <-> imports_file read s x).
  { intros s x Hs. rewrite (depsP_imports _ _ HL s Hs). unfold imports_file. rewrite in_map_iff. split.
    - intros ([y c] & E & H). cbn in E; subst. eauto.
    - intros [c H]. exists (x, c); auto. }
  assert (Hbl : forall p x, reach entry p -> gbelow (cssP l) (depsP l) p x <-> below p x).
  { intros p x Hp. unfold gbelow, BundleSpec.below. split; intros (m & H1 & H2); exists m.
    - apply (Him p m Hp) in H1. assert (Hm : reach entry m) by (econstructor; [exact Hp|left; assumption]).
      split; [left; assumption|]. apply Hge; assumption.
    - assert (Hi' : imports_file read p m) by (destruct H1 as [H1|H1]; [assumption|rewrite (HN p Hp) in H1; destruct H1]).
      assert (Hm : reach entry m) by (econstructor; [exact Hp|left; assumption]).
      split; [apply (Him p m Hp); assumption|]. apply Heg; assumption. }
  refine (browser_order_abstract m_empty entry (cssP l) (depsP l) (rulesP l) (condsP l) HN' n ost n st' Y W1 W2
            (fun _ => eq_refl) _ HY Ho Hi).
  intros p x s (s1 & k1 & s2 & k2 & R1 & R2 & Hne & N1 & N2) Hb Hs Hx.
  apply (greach_reach _ _ HL) in R1. apply (greach_reach _ _ HL) in R2. apply (greach_reach _ _ HL) in Hs.
  assert (Hp : reach entry p).
  { econstructor; [exact R1|]. left. apply (Him s1 p R1). eapply nth_error_In; exact N1. }
  rewrite (depsP_imports _ _ HL s1 R1) in N1. rewrite (depsP_imports _ _ HL s2 R2) in N2.
  apply (Him s x Hs) in Hx. apply (Hbl p x Hp) in Hb.
  destruct (HP p x s) as [->|H]; auto.
  - exists s1, k1, s2, k2. auto.
  - right. apply Hbl; assumption.
Qed.

(** ** Wrappers *)
Lemma body_wrapper : forall sched l n st i w rs p, loads sched l -> acyclic read css_modules entry ->
    bundle_sheets n l = IOk st -> In (OBody i w rs) (i_out st) -> rs <> [] -> sheet_name l i = Some p ->
    exists s, In s l /\ sh_path s = p /\ w = sh_conds s.
Proof.
  intros sched l n st i w rs p HL HA HB Hin Hne Hp. destruct (ok_paths _ _ _ _ HL HB) as (ost & st' & Ho & Hi & Hout & Hlt).
  rewrite Forall_forall in Hlt. pose proof (Hlt _ Hin) as Hil. cbn in Hil.
  assert (Hin' : In (OBody (pat l i) w rs) (i_out st')).
  { rewrite Hout. exact (in_map (ren_item (pat l)) _ _ Hin). }
  rewrite (names_pat _ _ _ HL Hil) in Hp. inversion Hp; subst p.
  set (bl := fun s d => exists m, edge (cssP l) (depsP l) s m /\ greach (cssP l) (depsP l) m d).
  assert (Tr : forall a b c, greach (cssP l) (depsP l) a b -> greach (cssP l) (depsP l) b c -> greach (cssP l) (depsP l) a c).
  { intros a b c Hab Hbc. induction Hbc as [x|x y z H1 IH H2]; [assumption|]. econstructor; [exact (IH Hab)|exact H2]. }
  assert (Hw : w = condsP l (pat l i)).
  { refine (inline_wrapped m_empty entry (cssP l) (depsP l) (rulesP l) (condsP l) (o_parent ost) bl _ _ _ n st' Hi _ _ _ Hin' Hne).
    - intros s d H. exists d. split; [exact H|constructor].
    - intros a b c (m & H1 & H2) (m' & H3 & H4). exists m. split; [assumption|].
      apply (Tr _ b); [assumption|]. apply (Tr _ m'); [|assumption]. econstructor; [constructor|assumption].
    - intros s (m & H1 & H2).
      assert (Hs : reach entry s).
      { destruct (in_dec Nat.eq_dec s (map sh_path l)) as [H|H]; [apply (loads_reach _ _ HL); assumption|].
        exfalso. unfold edge in H1. rewrite (unreached_edge _ _ HL s) in H1; [destruct H1|].
        intros H'. apply H, (loads_reach _ _ HL), H'. }
      apply (HA s Hs). apply (refers_edge _ _ HL) in H1; [|assumption]. exists m. split; [assumption|].
      assert (Hm : reach entry m) by (econstructor; eauto).
      clear - H2 Hm HL. induction H2 as [x|x y z H IH He]; [constructor|].
      specialize (IH Hm). econstructor; [exact IH|].
      apply (refers_edge _ _ HL); [|assumption].
      clear - IH Hm. induction IH; [assumption|]. econstructor; eauto. }
  destruct (pat_in _ _ HL i Hil) as (s & Hs & Hps & Hf). exists s. split; [eapply nth_error_In; eauto|].
  split; [auto|]. rewrite Hw. unfold BundleProofs.condsP. rewrite Hf. reflexivity.
Qed.

Lemma body_sound : forall me se dom, exact_ops m_empty m_is_empty m_and m_or s_and s_or dom me se ->
    (forall p q c, reach entry p -> In (q, c) (imports p) -> dom (c_media c)) ->
    forall sched l n st i w rs p, loads sched l -> acyclic read css_modules entry ->
    bundle_sheets n l = IOk st -> In (OBody i w rs) (i_out st) -> rs <> [] -> sheet_name l i = Some p ->
    applies me se w = true -> exists cs, chain p cs /\ chain_applies me se cs = true.
Proof.
  intros me se dom X Hd sched l n st i w rs p HL HA HB Hin Hne Hp Hw.
  destruct (body_wrapper _ _ _ _ _ _ _ _ HL HA HB Hin Hne Hp) as (s & Hs & <- & ->).
  exact (conds_sound m_empty m_is_empty m_and m_or s_and s_or read css_modules entry me se dom X Hd sched l s HL Hs Hw).
Qed.
Lemma body_complete : forall me se dom, exact_ops m_empty m_is_empty m_and m_or s_and s_or dom me se ->
    (forall p q c, reach entry p -> In (q, c) (imports p) -> dom (c_media c)) ->
    (forall p q cs cs', refers p q -> chain p cs -> chain p cs' -> chain_applies me se cs = chain_applies me se cs') ->
    forall sched l n st i w rs p cs, loads sched l -> acyclic read css_modules entry ->
    bundle_sheets n l = IOk st -> In (OBody i w rs) (i_out st) -> rs <> [] -> sheet_name l i = Some p ->
    chain p cs -> chain_applies me se cs = true -> applies me se w = true.
Proof.
  intros me se dom X Hd HU sched l n st i w rs p cs HL HA HB Hin Hne Hp Hc Hcs.
  destruct (body_wrapper _ _ _ _ _ _ _ _ HL HA HB Hin Hne Hp) as (s & Hs & <- & ->).
  exact (conds_complete m_empty m_is_empty m_and m_or s_and s_or read css_modules entry me se dom X Hd sched l s HU HL Hs cs Hc Hcs).
Qed.
Lemma body_layer : (forall p q c, reach entry p -> In (q, c) (imports p) -> c_layer c <> Some None) ->
    forall sched l n st i w rs p cs, loads sched l -> acyclic read css_modules entry ->
    bundle_sheets n l = IOk st -> In (OBody i w rs) (i_out st) -> rs <> [] -> sheet_name l i = Some p ->
    (forall cs1 cs2, chain p cs1 -> chain p cs2 -> layer_of_chain cs1 = layer_of_chain cs2) ->
    chain p cs -> c_layer w = layer_of_chain cs.
Proof.
  intros HN sched l n st i w rs p cs HL HA HB Hin Hne Hp HU Hc.
  destruct (body_wrapper _ _ _ _ _ _ _ _ HL HA HB Hin Hne Hp) as (s & Hs & <- & ->).
  exact (proj1 (layers_agree m_empty m_is_empty m_and m_or s_and s_or read css_modules entry HN sched l s cs HL Hs HU Hc)).
Qed.
(** the layer statements of a file, with the right prefix *)
Lemma file_rules : leads -> no_import_cycle read css_modules entry ->
    (forall p q c, reach entry p -> In (q, c) (imports p) -> c_layer c <> Some None) ->
    forall sched l n st p cs rs, loads sched l ->
    bundle_sheets n l = IOk st -> 
    (forall cs1 cs2, chain p cs1 -> chain p cs2 -> layer_of_chain cs1 = layer_of_chain cs2) ->
    chain p cs -> read p = Some rs ->
    rules_from p (sheet_name l) (i_out st) = own_rules (in_layer (layer_of_chain cs) rs).
Proof.
  intros HW HC HN sched l n st p cs rs HL HB HU Hc Hr.
  assert (Hp : reach entry p) by (eapply chain_reach; eauto).
  destruct (ok_paths _ _ _ _ HL HB) as (ost & st' & Ho & Hi & Hout & Hlt).
  destruct (path_hyps _ _ HL HW) as [W1 W2].
  rewrite (from_ren _ _ _ _ HL Hlt), <- Hout.
  destruct (inline_once m_empty entry (cssP l) (depsP l) (rulesP l) (condsP l) (o_parent ost) W1 W2 (fun _ => eq_refl) n st' Hi p) as [H _].
  rewrite H by (refine (all_descend _ _ HL HC n ost Ho p _); apply (vis_reach _ _ HL n ost Ho); assumption).
  f_equal. apply (loads_reach _ _ HL) in Hp. unfold rulesP.
  destruct (find_sheet M S p l) as [s|] eqn:E; [|apply find_sheet_none in E; contradiction].
  apply find_sheet_in in E as [Hs <-].
  destruct (layers_agree m_empty m_is_empty m_and m_or s_and s_or read css_modules entry HN sched l s cs HL Hs HU Hc) as (_ & rs' & R1 & R2).
  congruence.
Qed.
End Main.

(** ** Media lists of the media query model *)
Lemma mtype_refl : forall t, mtype_eqb t t = true.
Proof. intros [| | |x]; try reflexivity. cbn. apply String.eqb_refl. Qed.
Lemma media_exact : forall {S} (s_and s_or : S -> S -> S) t e (se : S -> bool),
    (forall a b, se (s_and a b) = se a && se b) -> (forall a b, se (s_or a b) = se a || se b) ->
    exact_ops [] mlist_empty list_and list_or s_and s_or (one_type t) (list_matches e) se.
Proof.
  intros S s_and s_or t e se Ha Ho. constructor; auto.
  - split; [left; reflexivity|reflexivity].
  - intros [|q m] H; [reflexivity|discriminate].
  - intros a b r Da Db H.
    assert (Hs : and_safe_lists a b = true /\ one_type t r).
    { destruct Da as [->|([qa ta ca] & -> & Qa & Ta)]; [inversion H; subst; auto|].
      destruct Db as [->|([qb tb cb] & -> & Qb & Tb)].
      { cbn in H. inversion H; subst. split; [reflexivity|]. right. eexists; split; [reflexivity|auto]. }
      cbn in Qa, Qb, Ta, Tb. subst qa qb. split.
      - cbn [and_safe_lists]. unfold and_safe. cbn [mq_qual mq_type mq_cond].
        destruct Ta as [->| ->]; [apply orb_true_r|]. destruct Tb as [->| ->].
        + destruct t; apply orb_true_r.
        + destruct t; rewrite ?mtype_refl; apply orb_true_r.
      - unfold list_and in H. cbn [list_and_loop] in H. destruct (mlist_contains _ _) in H.
        + inversion H; subst. right. eexists; split; [reflexivity|auto].
        + cbn [map_opt] in H. unfold query_and in H. cbn [mq_qual mq_type mq_cond] in H.
          assert (E : exists u, and_types (None, ta) (None, tb) = Some (None, u) /\ (u = MAll \/ u = t)).
          { destruct Ta as [->| ->].
            - exists tb. split; [destruct tb; reflexivity|auto].
            - destruct Tb as [->| ->]; exists t; (split; [|auto]); destruct t; try reflexivity.
              cbn. rewrite String.eqb_refl. reflexivity. }
          destruct E as (u & E & Hu). rewrite E in H. inversion H; subst. right. eexists; split; [reflexivity|auto]. }
    split; [apply Hs|]. apply (and_sound a b r e H). apply Hs.
  - intros a b Ea Eb. apply or_sound; [destruct a|destruct b]; discriminate.
Qed.
