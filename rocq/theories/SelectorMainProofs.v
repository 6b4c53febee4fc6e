(** The statements of SelectorProps, assembled. *)
From Coq Require Import ZArith NArith List Bool String Relations Lia.
From Verif Require Import BloomModel SelectorModel SelectorSpec SelectorMatchProofs
  SelectorBuildProofs BloomProofs SpecificityProofs.
Import ListNotations.

Lemma reachable_ok : forall cx s, reachable cx s -> cache_ok s.
Proof.
  intros cx s [->|[l R]]; [exact I|]. exact (run_queries_ok cx l _ _ empty_cache_ok R).
Qed.

Theorem specificity_saturates : forall parts ks s,
  well_formed parts ks -> Forall (Forall built) parts ->
  selector_from (interleave parts ks) = Some s ->
  let '(a, b, c) := css_items css_spec (interleave parts ks) in
  s_id (s_unpack (fst s)) = N.min a 1023 /\
  ((a < 1024)%N -> s_class (s_unpack (fst s)) = N.min b 1023 /\
    ((b < 1024)%N -> s_elem (s_unpack (fst s)) = N.min c 1023)).
Proof.
  intros parts ks s W B E. apply (packed_read (fst s) (css_items css_spec (interleave parts ks))).
  apply (source_packed parts ks s W B E).
Qed.

Theorem specificity_order : forall p1 k1 s1 p2 k2 s2,
  well_formed p1 k1 -> Forall (Forall built) p1 -> selector_from (interleave p1 k1) = Some s1 ->
  well_formed p2 k2 -> Forall (Forall built) p2 -> selector_from (interleave p2 k2) = Some s2 ->
  below_1024 (css_items css_spec (interleave p1 k1)) ->
  below_1024 (css_items css_spec (interleave p2 k2)) ->
  N.compare (fst s1) (fst s2)
  = t_cmp (css_items css_spec (interleave p1 k1)) (css_items css_spec (interleave p2 k2)).
Proof.
  intros p1 k1 s1 p2 k2 s2 W1 B1 E1 W2 B2 E2 L1 L2.
  apply packed_compare; try assumption; eapply source_packed; eassumption.
Qed.

Theorem nested_built : forall parts ks s, well_formed parts ks -> Forall (Forall built) parts ->
  selector_from (interleave parts ks) = Some s ->
  built (CIs [s]) /\ built (CNot [s]) /\ built (CSlotted s) /\ built (CHost (Some s)).
Proof.
  intros parts ks s W B E. pose proof (builder_built parts ks s W B E) as P.
  cbn [built fold_right]. tauto.
Qed.

Theorem match_order_ok : forall parts ks s, well_formed parts ks ->
  selector_from (interleave parts ks) = Some s ->
  snd s = interleave (rev parts) (rev ks).
Proof. intros parts ks s W E. rewrite (build_order parts ks W) in E. injection E as <-. reflexivity. Qed.

Theorem builds : forall parts ks, well_formed parts ks ->
  exists s, selector_from (interleave parts ks) = Some s.
Proof. intros parts ks W. eexists. apply (build_order parts ks W). Qed.

Theorem parse_order_main : forall parts ks s, well_formed parts ks ->
  selector_from (interleave parts ks) = Some s ->
  parse_order (snd s) = interleave (map (@rev comp) parts) ks.
Proof.
  intros parts ks s W E. rewrite (match_order_ok parts ks s W E). apply parse_order_ok. exact W.
Qed.

Theorem matching_main : forall cx n parts ks s e st0,
  well_formed parts ks -> sup_source n parts ks -> small n e -> reachable cx st0 ->
  selector_from (interleave parts ks) = Some s ->
  exists b st1, matches_selector cx s None None e st0 = Some (b, st1) /\
    (b = true <-> exists es, assignment cx parts ks es e).
Proof.
  intros cx n parts ks s e st0 W S Sm R E.
  eapply matching_written; try eassumption. eapply reachable_ok; eassumption.
Qed.

Theorem list_main : forall cx n l e st0,
  sup_list (supported n) l -> small n e -> reachable cx st0 ->
  exists b st1, matches_selector_list cx l e st0 = Some (b, st1) /\
    (b = true <-> exists s, In s l /\ sem_items (sem_comp cx) (snd s) e).
Proof.
  intros cx n l e st0 S Sm R.
  destruct (match_list_ok cx n l e st0 S (reachable_ok _ _ R) Sm) as (b & s' & E & _ & H).
  exists b, s'. split; [exact E|]. rewrite H. clear. induction l as [|[v items] l IH]; cbn [sem_any].
  - split; [intros []|intros (s & [] & _)].
  - rewrite IH. split.
    + intros [F|(s & I & F)]; [exists (v, items); split; [left; reflexivity|exact F]|].
      exists s. split; [right; exact I|exact F].
    + intros (s & [<-|I] & F); [left; exact F|right; exists s; auto].
Qed.

Theorem nth_main : forall cx n ty a b e st0,
  supported n (CNth ty a b) -> small n e -> reachable cx st0 ->
  exists r st1, match_simple cx (CNth ty a b) e st0 = Some (r, st1) /\ (r = true <-> sem_nth ty a b e).
Proof.
  intros cx n ty a b e st0 S Sm R.
  destruct (match_nth_ok n ty a b e st0 (reachable_ok _ _ R) Sm S) as (r & s' & E & _ & H).
  exists r, s'. auto.
Qed.

Theorem cache_irrelevant : forall cx n s e st1 st2,
  sup_items (supported n) (snd s) -> small n e -> reachable cx st1 -> reachable cx st2 ->
  exists b st1' st2', matches_selector cx s None None e st1 = Some (b, st1') /\
    matches_selector cx s None None e st2 = Some (b, st2').
Proof.
  intros cx n s e st1 st2 S Sm R1 R2. unfold matches_selector.
  destruct (match_selector_ok cx n (snd s) e st1 S (reachable_ok _ _ R1) Sm) as (b & s1 & E1 & _ & H1).
  destruct (match_selector_ok cx n (snd s) e st2 S (reachable_ok _ _ R2) Sm) as (b' & s2 & E2 & _ & H2).
  assert (b = b').
  { destruct b, b'; try reflexivity.
    - symmetry. apply H2. apply H1. reflexivity.
    - apply H1. apply H2. reflexivity. }
  subst b'. exists b, s1, s2. split; assumption.
Qed.

Theorem fast_reject_main : forall hash cx n s e l bf st0,
  sup_items (supported n) (snd s) -> small n e -> reachable cx st0 ->
  balanced l -> run_bops empty_filter l = Some bf ->
  (forall a x, clos_trans elem is_parent a e -> In x (relevant (e_data a)) ->
     present l (hash x) 0 > 0) ->
  exists b st1,
    matches_selector cx s (Some (ancestor_hashes hash (c_quirks cx) (snd s))) (Some bf) e st0 = Some (b, st1) /\
    (b = true <-> sem_items (sem_comp cx) (snd s) e).
Proof.
  intros hash cx n s e l bf st0 Sup Sm R B Run P.
  apply (fast_reject_ok hash cx n s e bf st0 Sup Sm (reachable_ok _ _ R)).
  intros a x A I. rewrite contain_mask.
  destruct (bloom_history l B) as (c & Rc & H). rewrite Run in Rc. injection Rc as <-.
  apply H. apply (P a x A I).
Qed.
