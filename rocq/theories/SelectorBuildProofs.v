(** Proofs about the builder: storage order, and matching in terms of the
    selector as written. *)
From Coq Require Import ZArith NArith List Bool String Relations Lia.
From Verif Require Import BloomModel SelectorModel SelectorSpec SelectorMatchProofs.
Import ListNotations.

Notation pair_l := (prod comb (list comp)).

(** The stored form of [(k, q)] pairs from right to left, and the written form
    from left to right, [q] being to the left of [k]. *)
Definition stored (l : list pair_l) : list comp := flat_map (fun x => CComb (fst x) :: snd x) l.
Definition written (l : list pair_l) : list comp := flat_map (fun x => snd x ++ [CComb (fst x)]) l.

Lemma flat_map_snoc : forall (A B : Type) (f : A -> list B) l x,
  flat_map f (l ++ [x]) = flat_map f l ++ f x.
Proof. intros. rewrite flat_map_app. cbn [flat_map]. rewrite app_nil_r. reflexivity. Qed.

Lemma interleave_stored : forall l p,
  interleave (p :: map snd l) (map fst l) = p ++ stored l.
Proof.
  induction l as [|[k q] l IH]; intros p.
  - cbn. rewrite app_nil_r. reflexivity.
  - change (interleave (p :: map snd ((k, q) :: l)) (map fst ((k, q) :: l)))
      with (p ++ CComb k :: interleave (q :: map snd l) (map fst l)).
    rewrite IH. reflexivity.
Qed.

Lemma interleave_written : forall l p,
  interleave (map snd l ++ [p]) (map fst l) = written l ++ p.
Proof.
  induction l as [|[k q] l IH]; intros p; [reflexivity|].
  cbn [map app fst snd written flat_map].
  change (flat_map (fun x : comb * list comp => snd x ++ [CComb (fst x)]) l) with (written l).
  rewrite <- app_assoc, <- app_assoc.
  cbn [app]. rewrite <- IH.
  destruct (map snd l ++ [p]) eqn:E; [destruct (map snd l); discriminate|].
  reflexivity.
Qed.

(** Every well-formed source is a list of pairs and a last compound. *)
Lemma as_pairs : forall (parts : list (list comp)) (ks : list comb), List.length parts = S (List.length ks) ->
  exists (l : list pair_l) p, parts = map snd l ++ [p] /\ ks = map fst l.
Proof.
  induction parts as [|q parts IH]; intros ks L; [discriminate|].
  destruct ks as [|k ks].
  - destruct parts; [|discriminate]. exists [], q. split; reflexivity.
  - cbn [List.length] in L. injection L as L. destruct (IH ks L) as (l & p & E1 & E2).
    exists ((k, q) :: l), p. cbn [map fst snd app]. rewrite <- E1, <- E2. split; reflexivity.
Qed.

Lemma rev_parts : forall l p, rev (map snd l ++ [p]) = (p : list comp) :: map snd (rev (l : list pair_l)).
Proof. intros. rewrite rev_app_distr, map_rev. reflexivity. Qed.

Lemma split_end : forall (A : Type) (x y : list A),
  split_from_end (x ++ y) (List.length y) = Some (x, y).
Proof.
  intros A x y. unfold split_from_end. rewrite app_length.
  replace (Nat.leb (List.length y) (List.length x + List.length y)) with true
    by (symmetry; apply PeanoNat.Nat.leb_le; lia).
  replace (List.length x + List.length y - List.length y) with (List.length x) by lia.
  rewrite firstn_app, skipn_app, firstn_all, skipn_all, PeanoNat.Nat.sub_diag.
  cbn [firstn skipn]. rewrite app_nil_r. reflexivity.
Qed.

Definition lens (l : list pair_l) : list (comb * nat) :=
  map (fun x => (fst x, List.length (snd x))) l.

Lemma iter_pairs : forall l,
  b_iter (List.concat (map snd l)) (rev (lens l)) = Some (stored (rev l)).
Proof.
  induction l as [|[k q] l IH] using rev_ind; [reflexivity|].
  unfold lens. rewrite !map_app, rev_app_distr, concat_app, rev_app_distr.
  change ([(k, q)] : list pair_l) with ([(k, q)] : list pair_l).
  cbn [map List.concat rev app fst snd b_iter]. rewrite app_nil_r, split_end.
  fold (lens l). rewrite IH. reflexivity.
Qed.

Definition plain (q : list comp) : Prop := Forall (fun c => is_comb c = false) q.

Lemma push_all_app : forall l1 l2 b, b_push_all b (l1 ++ l2) = b_push_all (b_push_all b l1) l2.
Proof.
  induction l1 as [|c l1 IH]; intros l2 b; [reflexivity|]. cbn [app].
  destruct c; cbn [b_push_all]; apply IH.
Qed.

Lemma push_plain : forall q b, plain q ->
  b_push_all b q = mkb (b_simples b ++ q) (b_combs b) (b_len b + List.length q).
Proof.
  induction q as [|c q IH]; intros b P.
  - cbn. rewrite app_nil_r, PeanoNat.Nat.add_0_r. destruct b; reflexivity.
  - inversion P as [|? ? Hc Hq]; subst.
    assert (U : b_push_all b (c :: q) = b_push_all (b_push b c) q) by (destruct c; try discriminate; reflexivity).
    rewrite U, IH by exact Hq. unfold b_push. cbn [b_simples b_combs b_len List.length].
    rewrite <- app_assoc. cbn [app]. f_equal. lia.
Qed.

Lemma push_written : forall l b, Forall (fun x => plain (snd x)) l -> b_len b = 0 ->
  b_push_all b (written l) = mkb (b_simples b ++ List.concat (map snd l)) (b_combs b ++ lens l) 0.
Proof.
  induction l as [|[k q] l IH]; intros b P L.
  - cbn. rewrite !app_nil_r. destruct b; cbn in L |- *. rewrite L. reflexivity.
  - inversion P as [|? ? Hq Hl]; subst. cbn [snd] in Hq.
    cbn [written flat_map fst snd map List.concat lens]. fold (written l). fold (lens l).
    rewrite <- app_assoc. rewrite push_all_app, (push_plain q b Hq). cbn [app b_push_all].
    unfold b_push_comb. cbn [b_simples b_combs b_len]. rewrite IH; [|exact Hl|reflexivity].
    cbn [b_simples b_combs]. rewrite L. cbn [Nat.add]. rewrite <- !app_assoc. reflexivity.
Qed.

Lemma build_pairs : forall l p, Forall (fun x => plain (snd x)) l -> plain p ->
  b_build (b_push_all b_new (written l ++ p)) = Some (p ++ stored (rev l)) /\
  b_simples (b_push_all b_new (written l ++ p)) = List.concat (map snd l) ++ p.
Proof.
  intros l p Hl Hp. rewrite push_all_app, push_written by (assumption || reflexivity).
  rewrite push_plain by exact Hp. cbn [b_simples b_combs b_len b_new app Nat.add]. split; [|reflexivity].
  unfold b_build. cbn [b_simples b_combs b_len]. rewrite split_end, iter_pairs. reflexivity.
Qed.

Lemma forall_pairs : forall l p,
  Forall (Forall (fun c => is_comb c = false)) (map snd l ++ [p]) ->
  Forall (fun x : pair_l => plain (snd x)) l /\ plain p.
Proof.
  intros l p F. apply Forall_app in F. destruct F as [F1 F2]. split.
  - rewrite Forall_map in F1. exact F1.
  - inversion F2; assumption.
Qed.

Lemma concat_snoc : forall (A : Type) (l : list (list A)) x, List.concat (l ++ [x]) = List.concat l ++ x.
Proof. intros. rewrite concat_app. cbn. rewrite app_nil_r. reflexivity. Qed.

Theorem build_order : forall parts ks, well_formed parts ks ->
  selector_from (interleave parts ks)
  = Some (s_pack (complex_spec (List.concat parts)), interleave (rev parts) (rev ks)).
Proof.
  intros parts ks [L F]. destruct (as_pairs parts ks L) as (l & p & -> & ->).
  destruct (forall_pairs l p F) as [Fl Fp].
  rewrite interleave_written. destruct (build_pairs l p Fl Fp) as [B S].
  unfold selector_from, b_build_sel. rewrite B, S, rev_parts, <- map_rev, interleave_stored, concat_snoc.
  reflexivity.
Qed.

(** ** Nesting prefix *)

Theorem nesting_prefix : forall parts ks, well_formed parts ks ->
  b_build (b_nesting_prefix (b_push_all b_new (interleave parts ks)))
  = Some (interleave (rev ([CNesting] :: parts)) (rev (Descendant :: ks))).
Proof.
  intros parts ks [L F]. destruct (as_pairs parts ks L) as (l & p & -> & ->).
  destruct (forall_pairs l p F) as [Fl Fp].
  rewrite interleave_written, push_all_app, push_written by (assumption || reflexivity).
  rewrite push_plain by exact Fp. unfold b_nesting_prefix.
  cbn [b_simples b_combs b_len b_new app Nat.add].
  change ([CNesting] :: map snd l ++ [p]) with (map snd ((Descendant, [CNesting]) :: l) ++ [p]).
  change (Descendant :: map fst l) with (map fst ((Descendant, [CNesting]) :: l)).
  rewrite rev_parts, <- map_rev, interleave_stored.
  unfold b_build. cbn [b_simples b_combs b_len].
  change (CNesting :: List.concat (map snd l) ++ p) with (List.concat (map snd ((Descendant, [CNesting]) :: l)) ++ p).
  rewrite split_end.
  change ((Descendant, 1) :: lens l) with (lens ((Descendant, [CNesting]) :: l)).
  rewrite iter_pairs. reflexivity.
Qed.

(** ** Parse order *)

Lemma written_app : forall l1 l2, written (l1 ++ l2) = written l1 ++ written l2.
Proof. intros. apply flat_map_app. Qed.

Lemma rev_stored : forall l, rev (stored l) = written (map (fun x => (fst x, rev (snd x))) (rev l)).
Proof.
  induction l as [|[k q] l IH]; [reflexivity|].
  cbn [rev]. rewrite map_app, written_app, <- IH.
  cbn [stored flat_map fst snd]. fold (stored l). cbn [map written flat_map fst snd].
  rewrite app_nil_r. cbn [app rev]. rewrite rev_app_distr, <- app_assoc. reflexivity.
Qed.

Theorem parse_order_ok : forall parts ks, well_formed parts ks ->
  parse_order (interleave (rev parts) (rev ks)) = interleave (map (@rev comp) parts) ks.
Proof.
  intros parts ks [L F]. destruct (as_pairs parts ks L) as (l & p & -> & ->).
  rewrite rev_parts, <- map_rev, interleave_stored. unfold parse_order.
  rewrite rev_app_distr, rev_stored, rev_involutive.
  rewrite map_app. cbn [map].
  replace (map (@rev comp) (map snd l)) with (map snd (map (fun x : pair_l => (fst x, rev (snd x))) l))
    by (rewrite !map_map; reflexivity).
  replace (map fst l) with (map fst (map (fun x : pair_l => (fst x, rev (snd x))) l))
    by (rewrite map_map; reflexivity).
  rewrite interleave_written. reflexivity.
Qed.

(** * Matching in terms of the written selector *)

Lemma sem_app : forall sem p r e, plain p ->
  sem_items sem (p ++ r) e <-> Forall (fun c => sem c e) p /\ sem_items sem r e.
Proof.
  intros sem p r e P. induction p as [|c p IH].
  - cbn. split; [intros H; split; [constructor|exact H]|tauto].
  - inversion P as [|? ? Hc Hp]; subst. cbn [app].
    assert (U : sem_items sem (c :: p ++ r) e <-> sem c e /\ sem_items sem (p ++ r) e)
      by (destruct c; try discriminate; reflexivity).
    rewrite U, (IH Hp). split.
    + intros [A [B C]]. split; [constructor; assumption|exact C].
    + intros [A C]. inversion A; subst. tauto.
Qed.

Lemma chain_snoc : forall ks es x k y, es <> [] -> last es x = x ->
  (chain (ks ++ [k]) (es ++ [y]) <-> chain ks es /\ rel k x y).
Proof.
  induction ks as [|k0 ks IH]; intros es x k y N L.
  - destruct es as [|e1 [|e2 es]]; [congruence| |].
    + cbn in L. subst e1. cbn. tauto.
    + cbn [app chain]. destruct es; cbn; tauto.
  - destruct es as [|e1 [|e2 es]]; [congruence| |].
    + cbn [app chain]. destruct (ks ++ [k]) eqn:E; [destruct ks; discriminate|]. cbn. tauto.
    + change ((k0 :: ks) ++ [k]) with (k0 :: (ks ++ [k])).
      change ((e1 :: e2 :: es) ++ [y]) with (e1 :: e2 :: (es ++ [y])).
      cbn [chain]. change (e2 :: es ++ [y]) with ((e2 :: es) ++ [y]).
      rewrite (IH (e2 :: es) x k y); [tauto|discriminate|]. exact L.
Qed.

Lemma last_snoc : forall (A : Type) (l : list A) x d, last (l ++ [x]) d = x.
Proof.
  intros A l x d. induction l as [|y l IH]; [reflexivity|]. cbn [app].
  destruct (l ++ [x]) eqn:E; [destruct l; discriminate|]. rewrite <- E in *. cbn [last].
  rewrite E in *. exact IH.
Qed.

Lemma stored_assignment : forall cx l p e,
  Forall (fun x : pair_l => plain (snd x)) l -> plain p ->
  (sem_items (sem_comp cx) (p ++ stored l) e <->
   exists es, assignment cx (rev (p :: map snd l)) (rev (map fst l)) es e).
Proof.
  intros cx. induction l as [|[k q] l IH]; intros p e Fl Fp.
  - cbn [stored flat_map map rev app]. rewrite (sem_app _ p [] e Fp). cbn [sem_items]. unfold assignment. split.
    + intros [A _]. exists [e]. split; [constructor; [exact A|constructor]|]. split; [exact I|reflexivity].
    + intros [es [F [C L]]]. inversion F as [|? x ? es' Hx Hes]; subst. inversion Hes; subst.
      cbn in L. subst x. split; [exact Hx|exact I].
  - inversion Fl as [|? ? Hq Hl]; subst. cbn [snd] in Hq.
    rewrite (sem_app _ p _ e Fp). cbn [stored flat_map fst snd]. fold (stored l).
    cbn [app sem_items].
    change (rev (p :: map snd ((k, q) :: l))) with (rev (q :: map snd l) ++ [p]).
    change (rev (map fst ((k, q) :: l))) with (rev (map fst l) ++ [k]).
    split.
    + intros [A [e' [R F]]]. apply (IH q e' Hl Hq) in F. destruct F as [es [F [C L]]].
      exists (es ++ [e]). assert (N : es <> []).
      { intros ->. inversion F as [E|]. cbn [rev] in E. destruct (rev (map snd l)); discriminate. }
      split; [apply Forall2_app; [exact F|constructor; [exact A|constructor]]|].
      split; [apply chain_snoc with (x := e'); auto|apply last_snoc].
    + intros [es [F [C L]]]. apply Forall2_app_inv_l in F.
      destruct F as (es1 & es2 & F1 & F2 & ->).
      inversion F2 as [|? x ? es' Hx Hes]; subst. inversion Hes; subst.
      rewrite last_snoc in L. subst x. split; [exact Hx|].
      assert (N : es1 <> []).
      { intros ->. inversion F1 as [E|]. cbn [rev] in E. destruct (rev (map snd l)); discriminate. }
      exists (last es1 e).
      assert (LL : last es1 (last es1 e) = last es1 e).
      { clear -N. induction es1 as [|a [|b es1] IH]; [congruence|reflexivity|].
        cbn [last] in *. apply IH. discriminate. }
      apply (chain_snoc _ _ _ _ _ N LL) in C. destruct C as [C R]. split; [exact R|].
      apply (IH q _ Hl Hq). exists es1. split; [exact F1|]. split; [exact C|exact LL].
Qed.

Theorem sem_written : forall cx parts ks e, well_formed parts ks ->
  (sem_items (sem_comp cx) (interleave (rev parts) (rev ks)) e <->
   exists es, assignment cx parts ks es e).
Proof.
  intros cx parts ks e [L F]. destruct (as_pairs parts ks L) as (l & p & -> & ->).
  destruct (forall_pairs l p F) as [Fl Fp].
  rewrite rev_parts, <- map_rev, interleave_stored.
  rewrite (stored_assignment cx (rev l) p e); [|apply Forall_rev; exact Fl|exact Fp].
  cbn [rev]. rewrite <- map_rev, rev_involutive, <- map_rev, rev_involutive. reflexivity.
Qed.

Lemma sup_app : forall sup p r, plain p ->
  (Forall sup p /\ sup_items sup r) -> sup_items sup (p ++ r).
Proof.
  intros sup p r P [A B]. induction p as [|c p IH]; [exact B|].
  inversion P; inversion A; subst. cbn [app].
  assert (U : sup_items sup (c :: p ++ r) <-> sup c /\ sup_items sup (p ++ r))
    by (destruct c; try discriminate; reflexivity).
  apply U. auto.
Qed.

Lemma sup_stored : forall n l p, Forall (fun x : pair_l => plain (snd x)) l -> plain p ->
  Forall (supported n) p -> Forall (fun x : pair_l => Forall (supported n) (snd x)) l ->
  Forall (fun x : pair_l => tree_comb (fst x) = true) l ->
  sup_items (supported n) (p ++ stored l).
Proof.
  intros n. induction l as [|[k q] l IH]; intros p Fl Fp Sp Sl Tl.
  - apply sup_app; [exact Fp|]. split; [exact Sp|exact I].
  - inversion Fl; inversion Sl; inversion Tl; subst. cbn [fst snd] in *.
    apply sup_app; [exact Fp|]. split; [exact Sp|].
    cbn [stored flat_map fst snd]. fold (stored l). cbn [app sup_items]. split; [assumption|].
    apply IH; assumption.
Qed.

Lemma sup_written : forall n parts ks, well_formed parts ks -> sup_source n parts ks ->
  sup_items (supported n) (interleave (rev parts) (rev ks)).
Proof.
  intros n parts ks [L F] [S T]. destruct (as_pairs parts ks L) as (l & p & -> & ->).
  destruct (forall_pairs l p F) as [Fl Fp].
  rewrite rev_parts, <- map_rev, interleave_stored.
  apply Forall_app in S. destruct S as [S1 S2]. inversion S2; subst.
  apply sup_stored; try (apply Forall_rev); try assumption.
  - rewrite Forall_map in S1. exact S1.
  - rewrite Forall_map in T. exact T.
Qed.

Theorem matching_written : forall cx n parts ks s e st0,
  well_formed parts ks -> sup_source n parts ks -> small n e -> cache_ok st0 ->
  selector_from (interleave parts ks) = Some s ->
  exists b st1, matches_selector cx s None None e st0 = Some (b, st1) /\
    (b = true <-> exists es, assignment cx parts ks es e).
Proof.
  intros cx n parts ks s e st0 W S Sm OK B. rewrite (build_order parts ks W) in B. injection B as <-.
  cbn [matches_selector snd].
  destruct (match_selector_ok cx n _ e st0 (sup_written n parts ks W S) OK Sm) as (b & s' & E & _ & H).
  exists b, s'. split; [exact E|]. rewrite H. apply sem_written. exact W.
Qed.
