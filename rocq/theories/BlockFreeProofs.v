(** * Properties without a handler, [direction], [unicode-bidi] and custom properties in a block *)
From Coq Require Import List Bool PeanoNat Lia.
From Verif Require Import PrefixModel BlockModel BlockSpec BlockHandlers BlockValueSpec BlockProofs BlockRestProofs BlockUsedProofs BlockPartProofs BlockBoxProofs BlockPrefixProofs BlockAllProofs.
Import ListNotations.

(** ** A handler that handles nothing changes nothing *)
Section Idler.
Context {A R Cond : Type}.
Notation decl := (decl A R).
Definition idler : handler A R Cond := Handler unit tt (fun _ _ _ => None) (fun s ds => (s, ds, [])).
Notation D := (Running idler tt).
Variable ctx : context.
Variable unused : nat -> bool.
Variable req : R -> R -> bool.
Variable raw_fallbacks : R -> list (Cond * R) * R.
Notation handle := (handle ctx unused req raw_fallbacks).
Notation handle_all := (handle_all ctx unused req raw_fallbacks).
Notation minify := (minify ctx unused req raw_fallbacks).
Lemma try_idler (hs : list (running A R Cond)) ds a :
  try (hs ++ [D]) ds a = match try hs ds a with Some (hs', ds', x) => Some (hs' ++ [D], ds', x) | None => None end.
Proof.
  induction hs as [|[h s] hs IH]; [reflexivity|]. cbn [app try]. destruct (hhandle h s ds a) as [[[s' ds'] x]|]; [reflexivity|].
  rewrite IH. destruct (try hs ds a) as [[[hs' ds'] x]|]; reflexivity.
Qed.
Definition with_idler (s : state A R Cond) : state A R Cond := State (handlers s ++ [D]) (direction s) (bidi s) (customs s) (decls s).
Lemma handle_idler s d : handle (with_idler s) d = (with_idler (fst (handle s d)), snd (handle s d)).
Proof.
  destruct d as [a|v|v|kw|k w|name w]; cbn [BlockModel.handle]; try reflexivity.
  - unfold with_idler at 1 2. cbn [handlers decls]. rewrite try_idler. destruct (try (handlers s) (decls s) a) as [[[hs' ds'] x]|]; reflexivity.
  - unfold reset, with_idler. cbn [handlers decls customs direction bidi fst snd]. rewrite map_app. reflexivity.
  - unfold BlockModel.handle_custom. change (customs (with_idler s)) with (customs s). change (decls (with_idler s)) with (decls s). destruct (unused name); [reflexivity|].
    destruct (lookup name (customs s)) as [i|]; [destruct (same_custom req (decls s) i name w); [reflexivity|]|]; destruct (custom_fallbacks ctx raw_fallbacks name w); reflexivity.
Qed.
Lemma handle_all_idler l : forall s, handle_all (with_idler s) l = (with_idler (fst (handle_all s l)), snd (handle_all s l)).
Proof.
  induction l as [|d l IH]; intros s; [reflexivity|]. cbn [BlockModel.handle_all]. rewrite handle_idler. destruct (handle s d) as [s1 x]. cbn [fst snd]. rewrite IH.
  destruct (handle_all s1 l) as [s2 y]. reflexivity.
Qed.
Lemma finish_idler (hs : list (running A R Cond)) : forall ds, finish_all (hs ++ [D]) ds = let '(hs', ds', x) := finish_all hs ds in (hs' ++ [D], ds', x).
Proof.
  induction hs as [|[h s] hs IH]; intros ds; [reflexivity|]. cbn [app finish_all]. destruct (hfinish h s ds) as [[s' ds1] x]. rewrite IH.
  destruct (finish_all hs ds1) as [[hs' ds2] y]. reflexivity.
Qed.
Lemma minify_idler hs (l : list decl) : minify (hs ++ [D]) l = let '(hs', ds, x) := minify hs l in (hs' ++ [D], ds, x).
Proof.
  unfold BlockModel.minify. change (begin (hs ++ [D])) with (with_idler (begin hs)). rewrite handle_all_idler. destruct (handle_all (begin hs) l) as [s x]. cbn [fst snd].
  unfold finish. cbn [with_idler handlers decls direction bidi]. rewrite finish_idler. destruct (finish_all (handlers s) _) as [[hs' ds] y]. reflexivity.
Qed.

(** Its part: any properties *)
Definition idler_part (O : A -> bool) : part A R Cond.
Proof.
  refine (Part A R Cond O idler (fun _ => True) (fun s ds s' ds' => ds' = filter (kept O) ds) I _ _ _ _ _ _ _).
  - reflexivity.
  - reflexivity.
  - intros s ds s' ds' H. exact H.
  - intros s ds s' ds' e -> F. symmetry. apply apart_filter. exact F.
  - reflexivity.
  - intros s ds s' ds' a -> E. cbn. rewrite filter_app. cbn [filter kept]. rewrite E. reflexivity.
  - intros s ds s' ds' ->. cbn. split; [reflexivity|]. split; [apply apart_refl|]. split; [reflexivity|]. split; [constructor|exact I].
Defined.
Lemma idler_steps l : forall s ds, steps idler s ds l = (s, ds ++ map Plain l, []).
Proof. induction l as [|a l IH]; intros s ds; cbn [steps hhandle idler]; [rewrite app_nil_r; reflexivity|]. rewrite IH, <- app_assoc. reflexivity. Qed.
Lemma idler_keeps {C} O (gives : A -> option C) l : keeps (idler_part O) gives l.
Proof. intros s ds o _ _. cbn [of idler_part]. unfold alone. rewrite idler_steps. reflexivity. Qed.
Lemma idler_quiet O : quiet (idler_part O).
Proof. split; reflexivity. Qed.

Variable ps : list (part A R Cond).
Hypothesis Sep : separate ps.
Lemma idler_separate O : (forall p a, In p ps -> owns p a = true -> O a = false) -> separate (ps ++ [idler_part O]).
Proof.
  intros H i j p q a P Q O1 O2. destruct (Nat.lt_ge_cases i (length ps)) as [Li|Li], (Nat.lt_ge_cases j (length ps)) as [Lj|Lj].
  - rewrite nth_error_app1 in P, Q by assumption. exact (Sep i j p q a P Q O1 O2).
  - rewrite nth_error_app1 in P by assumption. rewrite nth_error_app2 in Q by assumption. destruct (j - length ps) as [|[|n]]; try discriminate Q. injection Q as <-.
    cbn in O2. rewrite (H p a (nth_error_In _ _ P) O1) in O2. discriminate.
  - rewrite nth_error_app2 in P by assumption. rewrite nth_error_app1 in Q by assumption. destruct (i - length ps) as [|[|n]]; try discriminate P. injection P as <-.
    cbn in O1. rewrite (H q a (nth_error_In _ _ Q) O2) in O1. discriminate.
  - rewrite nth_error_app2 in P, Q by assumption. assert (i - length ps = 0) by (destruct (i - length ps) as [|[|n]]; [reflexivity|discriminate P|discriminate P]).
    assert (j - length ps = 0) by (destruct (j - length ps) as [|[|n]]; [reflexivity|discriminate Q|discriminate Q]). lia.
Qed.
Lemma idler_ready O hs : ready ps hs -> ready (ps ++ [idler_part O]) (hs ++ [D]).
Proof. intros Y. apply Forall2_app; [exact Y|]. constructor; [|constructor]. exists tt. split; [reflexivity|exact I]. Qed.
(** What no handler owns is kept *)
Lemma minify_free {C} (gives : A -> option C) O hs (l : list decl) o : ready ps hs -> (forall p a, In p ps -> owns p a = true -> O a = false) ->
  (forall a, O a = false -> gives a = None) -> Forall (parsed SAll) l ->
  used_from gives o (snd (fst (minify hs l))) = used_from gives o l.
Proof.
  intros Y H G F. pose proof (minify_idler hs l) as E.
  pose proof (quiet_rules ctx unused req raw_fallbacks (ps ++ [idler_part O]) (hs ++ [D]) (length ps) (idler_part O) l (idler_separate O H) (idler_ready O hs Y)) as X.
  assert (N : nth_error (ps ++ [idler_part O]) (length ps) = Some (idler_part O)) by (rewrite nth_error_app2, Nat.sub_diag by lia; reflexivity).
  specialize (X N (idler_quiet O)).
  pose proof (minify_used ctx unused req raw_fallbacks C (idler_part O) gives G (ps ++ [idler_part O]) (hs ++ [D]) (length ps) l o (idler_separate O H) (idler_ready O hs Y) N F (idler_keeps O gives _) X) as U.
  rewrite E in U. destruct (minify hs l) as [[hs' ds] x]. exact U.
Qed.
End Idler.

Section Block.
Context {V R Cond : Type}.
Variable c : config V R Cond.
Notation A := (prop V R).
Notation decl := (decl A R).
Variable unused : nat -> bool.
Variable req : R -> R -> bool.
Variable history history_important : list (context * list decl).
Variable ctx : context.
Variable normal important : list decl.
Notation out := (minify_after c unused req history history_important ctx normal important).
Notation hs := (after unused req (raw_fallbacks c) (fresh c) history).
Notation hi := (after unused req (raw_fallbacks c) (fresh c) history_important).
Definition is_free (a : A) : bool := match a with Free _ _ => true | _ => false end.
Lemma free_owner p a : In p (parts c) -> owns p a = true -> is_free a = false.
Proof.
  intros I O. apply In_nth_error in I. destruct I as [i N]. pose proof (owner_place c i p a N O) as E. destruct a; try reflexivity. discriminate E.
Qed.
Theorem free_block n o : Forall (parsed SAll) (normal ++ important) ->
  used_from (free_gives n) o (m_normal out ++ m_important out) = used_from (free_gives n) o (normal ++ important).
Proof.
  intros P. apply Forall_app in P. destruct P as [P Pi]. unfold minify_after. destruct (block_minify ctx unused req (raw_fallbacks c) hs hi normal important) as [-> [-> _]].
  assert (G : forall a : A, is_free a = false -> free_gives n a = None) by (intros a; destruct a; try reflexivity; discriminate).
  rewrite !used_app. rewrite (minify_free ctx unused req (raw_fallbacks c) (parts c) (parts_separate c) (free_gives n) is_free hs normal o (hs_ready c unused req history) free_owner G P).
  exact (minify_free ctx unused req (raw_fallbacks c) (parts c) (parts_separate c) (free_gives n) is_free hi important _ (hi_ready c unused req history_important) free_owner G Pi).
Qed.
Theorem direction_block o : Forall (parsed SDirection) (normal ++ important) ->
  direction_from o (m_normal out ++ m_important out) = direction_from o (normal ++ important).
Proof.
  intros P. apply Forall_app in P. destruct P as [P Pi]. unfold minify_after. destruct (block_minify ctx unused req (raw_fallbacks c) hs hi normal important) as [-> [-> _]].
  unfold direction_from. rewrite !fold_left_app.
  change (direction_from (direction_from o (snd (fst (minify ctx unused req (raw_fallbacks c) hs normal)))) (snd (fst (minify ctx unused req (raw_fallbacks c) hi important))) = direction_from (direction_from o normal) important).
  rewrite (minify_direction ctx unused req (raw_fallbacks c) (parts c) hs normal o (parts_separate c) (hs_ready c unused req history) P).
  exact (minify_direction ctx unused req (raw_fallbacks c) (parts c) hi important _ (parts_separate c) (hi_ready c unused req history_important) Pi).
Qed.
Theorem bidi_block o : Forall (parsed SBidi) (normal ++ important) ->
  bidi_from o (m_normal out ++ m_important out) = bidi_from o (normal ++ important).
Proof.
  intros P. apply Forall_app in P. destruct P as [P Pi]. unfold minify_after. destruct (block_minify ctx unused req (raw_fallbacks c) hs hi normal important) as [-> [-> _]].
  unfold bidi_from. rewrite !fold_left_app.
  change (bidi_from (bidi_from o (snd (fst (minify ctx unused req (raw_fallbacks c) hs normal)))) (snd (fst (minify ctx unused req (raw_fallbacks c) hi important))) = bidi_from (bidi_from o normal) important).
  rewrite (minify_bidi ctx unused req (raw_fallbacks c) (parts c) hs normal o (parts_separate c) (hs_ready c unused req history) P).
  exact (minify_bidi ctx unused req (raw_fallbacks c) (parts c) hi important _ (parts_separate c) (hi_ready c unused req history_important) Pi).
Qed.
Theorem custom_block {X} (value : R -> X) name o : unused name = false -> (forall u v, req u v = true -> u = v) ->
  (forall u, In (Custom name u) (normal ++ important) -> value (snd (raw_fallbacks c u)) = value u) ->
  custom_from value name o (m_normal out ++ m_important out) = custom_from value name o (normal ++ important).
Proof.
  intros U Hr H. unfold minify_after. destruct (block_minify ctx unused req (raw_fallbacks c) hs hi normal important) as [-> [-> _]].
  assert (Q : Forall (same_value ctx (raw_fallbacks c) X value name) (normal ++ important)).
  { apply Forall_forall. intros d I. destruct d as [| | | | |n u]; cbn; auto. intros ->. unfold custom_fallbacks. specialize (H u I).
    destruct ctx; try reflexivity; destruct (raw_fallbacks c u); exact H. }
  apply Forall_app in Q. destruct Q as [Q Qi]. unfold custom_from. rewrite !fold_left_app.
  change (custom_from value name (custom_from value name o (snd (fst (minify ctx unused req (raw_fallbacks c) hs normal)))) (snd (fst (minify ctx unused req (raw_fallbacks c) hi important))) = custom_from value name (custom_from value name o normal) important).
  erewrite minify_custom; [|exact U|exact Hr|exact (parts_separate c)|exact (hi_ready c unused req history_important)|exact Qi]. f_equal.
  eapply minify_custom; [exact U|exact Hr|exact (parts_separate c)|exact (hs_ready c unused req history)|exact Q].
Qed.
End Block.
