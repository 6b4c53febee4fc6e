(** * All modelled handlers together *)
From Coq Require Import List Bool PeanoNat Lia.
From Verif Require SideModel ShortModel SideSpec ShortSpec PrefixSpec.
From Verif Require Import PrefixModel BlockModel BlockSpec BlockHandlers BlockValueSpec BlockProofs BlockRestProofs BlockUsedProofs BlockPartProofs BlockBoxProofs BlockPrefixProofs BlockPrefixUsedProofs.
Import ListNotations.

(** ** Blocks with normal and important declarations *)
Section Block.
Context {A R Cond : Type}.
Variable ctx : context.
Variable unused : nat -> bool.
Variable req : R -> R -> bool.
Variable raw_fallbacks : R -> list (Cond * R) * R.
Notation minify := (minify ctx unused req raw_fallbacks).
Notation minify_block := (minify_block ctx unused req raw_fallbacks).
Notation part := (part A R Cond).
Notation decl := (decl A R).
Lemma block_minify (hs hi : list (running A R Cond)) (normal important : list decl) :
  let m := minify_block hs hi normal important in
  m_normal m = snd (fst (minify hs normal)) /\ m_important m = snd (fst (minify hi important))
  /\ forall O, rules_of O (m_rules m) = [] <-> rules_of O (snd (minify hs normal)) = [] /\ rules_of O (snd (minify hi important)) = [].
Proof.
  cbn zeta. unfold BlockModel.minify_block, BlockModel.minify. destruct (handle_all ctx unused req raw_fallbacks (begin hi) important) as [si xi].
  destruct (handle_all ctx unused req raw_fallbacks (begin hs) normal) as [s x]. destruct (finish s) as [[hs' ds] y]. destruct (finish si) as [[hi' di] yi]. cbn [m_normal m_important m_rules fst snd].
  split; [reflexivity|]. split; [reflexivity|]. intros O. unfold rules_of. rewrite !filter_app. split.
  - intros H. apply app_eq_nil in H. destruct H as [-> H]. apply app_eq_nil in H. destruct H as [-> H]. apply app_eq_nil in H. destruct H as [-> ->]. auto.
  - intros [H1 H2]. apply app_eq_nil in H1. apply app_eq_nil in H2. destruct H1 as [-> ->], H2 as [-> ->]. reflexivity.
Qed.
Lemma used_app {C} (gives : A -> option C) o (l m : list decl) : used_from gives o (l ++ m) = used_from gives (used_from gives o l) m.
Proof. unfold used_from. apply fold_left_app. Qed.

Variable ps : list part.
Hypothesis Sep : separate ps.
Lemma after_ready (history : list (context * list decl)) : forall hs, ready ps hs -> ready ps (after unused req raw_fallbacks hs history).
Proof.
  induction history as [|[cx l] r IH]; intros hs Y; [exact Y|]. cbn [after]. apply IH. apply minify_ready; assumption.
Qed.
(** One of the handlers *)
Lemma block_used {C} (gives : A -> option C) i p hs hi normal important o :
  ready ps hs -> ready ps hi -> nth_error ps i = Some p -> (forall a, owns p a = false -> gives a = None) ->
  Forall (parsed SAll) (normal ++ important) ->
  keeps p gives (segment (owns p) [] normal) -> keeps p gives (segment (owns p) [] important) ->
  rules_of (owns p) (m_rules (minify_block hs hi normal important)) = [] ->
  used_from gives o (m_normal (minify_block hs hi normal important) ++ m_important (minify_block hs hi normal important)) = used_from gives o (normal ++ important).
Proof.
  intros Y Yi P G F K Ki X. destruct (block_minify hs hi normal important) as [-> [-> B]]. apply B in X. destruct X as [X Xi].
  apply Forall_app in F. destruct F as [F Fi]. rewrite !used_app.
  rewrite (minify_used ctx unused req raw_fallbacks _ p gives G ps hs i normal o Sep Y P F K X).
  exact (minify_used ctx unused req raw_fallbacks _ p gives G ps hi i important _ Sep Yi P Fi Ki Xi).
Qed.
Lemma block_quiet {C} (gives : A -> option C) i p hs hi normal important o :
  ready ps hs -> ready ps hi -> nth_error ps i = Some p -> quiet p -> (forall a, owns p a = false -> gives a = None) ->
  Forall (parsed SAll) (normal ++ important) ->
  keeps p gives (segment (owns p) [] normal) -> keeps p gives (segment (owns p) [] important) ->
  used_from gives o (m_normal (minify_block hs hi normal important) ++ m_important (minify_block hs hi normal important)) = used_from gives o (normal ++ important).
Proof.
  intros Y Yi P Q G F K Ki. apply (block_used gives i p); try assumption. destruct (block_minify hs hi normal important) as [_ [_ B]]. apply B.
  split; [exact (quiet_rules ctx unused req raw_fallbacks ps hs i p normal Sep Y P Q)|exact (quiet_rules ctx unused req raw_fallbacks ps hi i p important Sep Yi P Q)].
Qed.
Lemma segment_owned O (l : list decl) : forall acc, Forall (fun a => O a = true) acc -> Forall (fun a => O a = true) (segment O acc l).
Proof.
  induction l as [|d l IH]; intros acc H; [exact H|]. destruct d as [a|v|v|kw|k w|n w]; cbn [segment]; try (apply IH; auto).
  destruct (O a) eqn:E; [|exact H]. apply Forall_app. split; [exact H|]. repeat constructor. exact E.
Qed.
Lemma segment_all (Q : A -> Prop) (O : A -> bool) l : forall acc, Forall Q acc -> Forall (fun d : decl => match d with Plain a => Q a | _ => True end) l -> Forall Q (segment O acc l).
Proof.
  induction l as [|d l IH]; intros acc H F; [exact H|]. pose proof (Forall_inv F) as Fd. apply Forall_inv_tail in F.
  destruct d as [a|v|v|kw|k w|n w]; cbn [segment]; try (apply IH; auto).
  destruct (O a); [|exact H]. apply Forall_app. auto.
Qed.
End Block.

(** ** The list of the handlers *)
Section All.
Context {V R Cond : Type}.
Variable c : config V R Cond.
Notation A := (prop V R).
Notation decl := (decl A R).
Definition parts : list (part A R Cond) :=
  [short_part c 0; pairs_part c 0; sides_part c 0; sides_part c 1; sides_part c 2; sides_part c 3; short_part c 1; sides_part c 4; pairs_part c 1; short_part c 2;
   fallback_part c; prefix_part c].
Lemma parts_of : map of parts = all_handlers c.
Proof. reflexivity. Qed.
Definition place_of (a : A) : option nat :=
  match a with
  | Short 0 _ => Some 0 | Pairs 0 _ => Some 1 | Sides 0 _ => Some 2 | Sides 1 _ => Some 3 | Sides 2 _ => Some 4 | Sides 3 _ => Some 5
  | Short 1 _ => Some 6 | Sides 4 _ => Some 7 | Pairs 1 _ => Some 8 | Short 2 _ => Some 9
  | Prefixed true _ _ _ | PrefixedRaw true _ _ _ => Some 10 | Prefixed false _ _ _ | PrefixedRaw false _ _ _ => Some 11
  | _ => None
  end.
Lemma owner_place i p a : nth_error parts i = Some p -> owns p a = true -> place_of a = Some i.
Proof.
  intros N O. do 12 (destruct i as [|i]; [injection N as <-; revert O; cbn [owns short_part pairs_part sides_part pusher_part fallback_part prefix_part]; unfold viewed, short_view, pair_view, side_view, prefix_owns;
    destruct a as [g d|g d|g d|h k v s|h k u s|n u]; try (intros O; discriminate O);
    try (destruct h; intros O; try discriminate O; reflexivity);
    destruct g as [|[|[|[|[|g]]]]]; cbn [Nat.eqb]; intros O; try discriminate O; reflexivity|]).
  destruct i; discriminate N.
Qed.
Lemma parts_separate : separate parts.
Proof. intros i j p q a P Q O1 O2. pose proof (owner_place i p a P O1) as E. rewrite (owner_place j q a Q O2) in E. injection E as ->. reflexivity. Qed.
Lemma fresh_ready : ready parts (fresh c).
Proof.
  unfold ready, fresh. rewrite <- parts_of, map_map. induction parts as [|p l IH]; constructor; [|exact IH]. exists (hstart (of p)). split; [reflexivity|apply start_idle].
Qed.
End All.

(** ** A block after other blocks *)
Section After.
Context {V R Cond : Type}.
Variable c : config V R Cond.
Notation A := (prop V R).
Notation decl := (decl A R).
Variable unused : nat -> bool.
Variable req : R -> R -> bool.
Variable history history_important : list (context * list decl).
Variable ctx : context.
Variable normal important : list decl.
Notation out := (minify_after c unused req history history_important ctx normal important).
Notation hs := (after unused req (raw_fallbacks c) (fresh c) history).
Notation hi := (after unused req (raw_fallbacks c) (fresh c) history_important).
Hypothesis P : Forall (parsed SAll) (normal ++ important).
Lemma hs_ready : ready (parts c) hs.
Proof. apply after_ready; [apply parts_separate|apply fresh_ready]. Qed.
Lemma hi_ready : ready (parts c) hi.
Proof. apply after_ready; [apply parts_separate|apply fresh_ready]. Qed.

Lemma side_none f w br x a : owns (sides_part c f) a = false -> side_gives f w br x a = None.
Proof. cbn. unfold viewed, side_view. destruct a; auto. cbn. destruct (Nat.eqb f f0); [discriminate|reflexivity]. Qed.
Lemma sides_index f : f < 5 -> exists i, nth_error (parts c) i = Some (sides_part c f).
Proof.
  intros L. destruct f as [|[|[|[|[|f]]]]]; [exists 2|exists 3|exists 4|exists 5|exists 7|lia]; reflexivity.
Qed.
Theorem sides_block f w br x o : f < 5 -> (forall a b, veq c a b = true -> a = b) -> logical c f = true -> SideSpec.proper w -> SideSpec.modern br ->
  used_from (side_gives f w br x) o (m_normal out ++ m_important out) = used_from (side_gives f w br x) o (normal ++ important).
Proof.
  intros L Hv Hl Hw Hm. destruct (sides_index f L) as [i N]. apply (block_quiet ctx unused req (raw_fallbacks c) (parts c) (parts_separate c) _ i (sides_part c f)).
  - exact hs_ready.
  - exact hi_ready.
  - exact N.
  - apply sides_quiet. exact Hl.
  - apply side_none.
  - exact P.
  - apply sides_supported; try assumption. apply segment_owned. constructor.
  - apply sides_supported; try assumption. apply segment_owned. constructor.
Qed.
Lemma rules_ext (O O' : A -> bool) (x : rules A R Cond) : (forall a, O a = O' a) -> rules_of O x = rules_of O' x.
Proof. intros E. unfold rules_of. apply filter_ext. intros [pl d]. destruct d; cbn; auto. Qed.
Theorem sides_compiled_block f rtl br x o : f < 5 -> (forall a b, veq c a b = true -> a = b) -> logical c f = false -> SideSpec.modern br ->
  rules_of (is_sides f) (m_rules out) = [] ->
  used_from (side_gives f (SideSpec.horizontal rtl) br x) o (m_normal out ++ m_important out) = used_from (side_gives f (SideSpec.horizontal rtl) br x) o (normal ++ important).
Proof.
  intros L Hv Hl Hm X. destruct (sides_index f L) as [i N]. apply (block_used ctx unused req (raw_fallbacks c) (parts c) (parts_separate c) _ i (sides_part c f)).
  - exact hs_ready.
  - exact hi_ready.
  - exact N.
  - apply side_none.
  - exact P.
  - apply sides_compiled; try assumption. apply segment_owned. constructor.
  - apply sides_compiled; try assumption. apply segment_owned. constructor.
  - rewrite <- X. apply rules_ext. intros a. cbn. unfold viewed, side_view. destruct a; try reflexivity. cbn. destruct (Nat.eqb f f0); reflexivity.
Qed.

Context {W X : Type}.
Lemma wf_segment O l : Forall wf_decl l -> Forall wf (segment O [] l : list A).
Proof. intros F. apply segment_all; [constructor|]. eapply Forall_impl; [|exact F]. intros d. destruct d; auto. Qed.
Theorem short_block f (br : ShortSpec.browser V R W X) k o : f < 3 -> k < width f -> ShortSpec.modern br -> Forall wf_decl (normal ++ important) ->
  (forall v, ShortSpec.value br (snd (fallbacks c v)) = ShortSpec.value br v) ->
  (forall u, fst (raw_fallbacks c u) = [] -> ShortSpec.tokens br (snd (raw_fallbacks c u)) = ShortSpec.tokens br u) ->
  rules_of (is_short f) (m_rules out) = [] ->
  used_from (short_gives f (width f) br k) o (m_normal out ++ m_important out) = used_from (short_gives f (width f) br k) o (normal ++ important).
Proof.
  intros L Lk Hm Hw Hf Hr Hx. apply Forall_app in Hw. destruct Hw as [Hw Hi]. assert (I : exists i, nth_error (parts c) i = Some (short_part c f)).
  { destruct f as [|[|[|f]]]; [exists 0|exists 6|exists 9|lia]; reflexivity. }
  destruct I as [i N]. apply (block_used ctx unused req (raw_fallbacks c) (parts c) (parts_separate c) _ i (short_part c f)).
  - exact hs_ready.
  - exact hi_ready.
  - exact N.
  - cbn. unfold viewed, short_view. intros a. destruct a; auto. cbn. destruct (Nat.eqb f f0); [discriminate|reflexivity].
  - exact P.
  - apply short_keeps; try assumption; [apply wf_segment; exact Hw|]. apply segment_owned. constructor.
  - apply short_keeps; try assumption; [apply wf_segment; exact Hi|]. apply segment_owned. constructor.
  - rewrite <- Hx. apply rules_ext. intros a. cbn. unfold viewed, short_view. destruct a; try reflexivity. cbn. destruct (Nat.eqb f f0); reflexivity.
Qed.
Theorem pairs_block f (br : ShortSpec.browser V R W X) k o : f < 2 -> k < 2 -> ShortSpec.modern br -> Forall wf_decl (normal ++ important) ->
  used_from (pair_gives f br k) o (m_normal out ++ m_important out) = used_from (pair_gives f br k) o (normal ++ important).
Proof.
  intros L Lk Hm Hw. apply Forall_app in Hw. destruct Hw as [Hw Hi]. assert (I : exists i, nth_error (parts c) i = Some (pairs_part c f)).
  { destruct f as [|[|f]]; [exists 1|exists 8|lia]; reflexivity. }
  destruct I as [i N]. apply (block_quiet ctx unused req (raw_fallbacks c) (parts c) (parts_separate c) _ i (pairs_part c f)).
  - exact hs_ready.
  - exact hi_ready.
  - exact N.
  - apply pairs_quiet.
  - cbn. unfold viewed, pair_view. intros a. destruct a; auto. cbn. destruct (Nat.eqb f f0); [discriminate|reflexivity].
  - exact P.
  - apply pairs_keeps; try assumption; [apply wf_segment; exact Hw|]. apply segment_owned. constructor.
  - apply pairs_keeps; try assumption; [apply wf_segment; exact Hi|]. apply segment_owned. constructor.
Qed.
Lemma prefix_none h (br : PrefixSpec.browser V R W) k q a : prefix_owns h a = false -> prefix_gives h br k q a = None.
Proof. unfold prefix_gives. destruct a as [| | |h' k' v s|h' k' u s|]; cbn; try reflexivity; intros ->; reflexivity. Qed.
Theorem prefix_block (br : PrefixSpec.browser V R W) k q o : (forall a b, veq c a b = true <-> a = b) ->
  needed (prefix_targets c) = None /\ (included (prefix_targets c) = false \/ excluded (prefix_targets c) = true) ->
  PrefixSpec.modern br -> (forall v v', PrefixSpec.value br v = PrefixSpec.value br v' -> v = v') ->
  Forall (PrefixSpec.written k) (prefix_segment false normal ++ prefix_segment false important) ->
  PrefixSpec.steady PrefixSpec.alone br k (prefix_segment false normal) -> PrefixSpec.steady PrefixSpec.alone br k (prefix_segment false important) ->
  used_from (prefix_gives false br k q) o (m_normal out ++ m_important out) = used_from (prefix_gives false br k q) o (normal ++ important).
Proof.
  intros Hv Ht Hm Hd Hw S1 S2. apply Forall_app in Hw. destruct Hw as [W1 W2].
  apply (block_quiet ctx unused req (raw_fallbacks c) (parts c) (parts_separate c) _ 11 (prefix_part c)).
  - exact hs_ready.
  - exact hi_ready.
  - reflexivity.
  - apply prefix_quiet.
  - apply prefix_none.
  - exact P.
  - apply prefix_keeps; try assumption. apply segment_owned. constructor.
  - apply prefix_keeps; try assumption. apply segment_owned. constructor.
Qed.
Theorem fallback_block (br : PrefixSpec.browser V R W) k o : (forall v, compat c v = true -> PrefixSpec.knows br v = true) -> (forall u, PrefixSpec.knows_raw br u = true) ->
  (forall v, fst (fallbacks c v) = [] \/ PrefixSpec.knows br v = true) ->
  (forall v, PrefixSpec.knows br (snd (fallbacks c v)) = PrefixSpec.knows br v /\ PrefixSpec.value br (snd (fallbacks c v)) = PrefixSpec.value br v) ->
  PrefixSpec.proper_table (prefix_targets c) ->
  Forall (PrefixSpec.unprefixed k) (prefix_segment true normal ++ prefix_segment true important) ->
  used_from (prefix_gives true br k NoPrefix) o (m_normal out ++ m_important out) = used_from (prefix_gives true br k NoPrefix) o (normal ++ important).
Proof.
  intros Hc Hr Hf Hs Ht Hu. apply Forall_app in Hu. destruct Hu as [U1 U2].
  apply (block_quiet ctx unused req (raw_fallbacks c) (parts c) (parts_separate c) _ 10 (fallback_part c)).
  - exact hs_ready.
  - exact hi_ready.
  - reflexivity.
  - apply fallback_quiet.
  - apply prefix_none.
  - exact P.
  - apply fallback_keeps; try assumption. apply segment_owned. constructor.
  - apply fallback_keeps; try assumption. apply segment_owned. constructor.
Qed.
End After.
