(** * The prefix and fallback handlers keep used values *)
From Coq Require Import List Bool PeanoNat Lia.
From Verif Require Import PrefixModel PrefixSpec.
Import ListNotations.

Lemma has_single p q : has (single p) q = pfx_eqb p q. Proof. destruct p, q; reflexivity. Qed.
Lemma pfx_eqb_eq p q : pfx_eqb p q = true <-> p = q.
Proof. destruct p, q; split; intros H; try reflexivity; discriminate H. Qed.
Lemma has_union a b p : has (union a b) p = has a p || has b p. Proof. destruct p; reflexivity. Qed.
Lemma includes_single s p : includes s (single p) = has s p.
Proof. destruct s as [[] [] [] [] []], p; reflexivity. Qed.
Lemma pset_ext a b : (forall p, has a p = has b p) -> a = b.
Proof.
  intros H. destruct a, b. pose proof (H WebKit). pose proof (H Moz). pose proof (H Ms). pose proof (H O). pose proof (H NoPrefix).
  cbn in *. subst. reflexivity.
Qed.

Section Values.
Variable V R : Type.
Notation decl := (decl V R).
Variable W : Type.
Variable covers : nat -> nat -> bool.
Variable br : browser V R W.
Notation used_from := (used_from covers br).
Notation gives := (gives covers br).

Lemma used_app x p o l m : used_from x p o (l ++ m) = used_from x p (used_from x p o l) m.
Proof. apply fold_left_app. Qed.
Lemma used_cons x p o d m : used_from x p o (d :: m) = used_from x p (match gives x p d with Some c => Some c | None => o end) m.
Proof. reflexivity. Qed.
(** Declarations that do not matter *)
Definition foreign (k : nat) (d : decl) : Prop := match d with Parsed k' _ _ | Unparsed k' _ _ => k' <> k | Other _ => True end.
Lemma used_foreign x k p m : (forall k', covers k' x = true -> k' = k) -> Forall (foreign k) m -> forall o, used_from x p o m = o.
Proof.
  intros C F. induction F as [|d r H F IH]; intros o; [reflexivity|]. rewrite used_cons. rewrite IH.
  destruct d as [k' v s|k' u s|n]; cbn in *; try reflexivity; destruct (covers k' x) eqn:E; try reflexivity; apply C in E; contradiction.
Qed.

Lemma replace_split (l : list decl) i d : nth_error l i = Some d ->
  exists a b, l = a ++ d :: b /\ length a = i /\ forall d', replace V R l i d' = a ++ d' :: b.
Proof.
  intros H. destruct (nth_error_split l i H) as [a [b [E L]]]. exists a, b. split; [exact E|]. split; [exact L|].
  intros d'. unfold replace. subst l i. rewrite firstn_app, Nat.sub_diag, firstn_all. cbn [firstn]. rewrite app_nil_r. f_equal. f_equal.
  change (S (length a)) with (1 + length a). rewrite skipn_app. rewrite skipn_all2 by lia. replace (1 + length a - length a) with 1 by lia. reflexivity.
Qed.
Lemma nth_error_middle {A} (a : list A) x b : nth_error (a ++ x :: b) (length a) = Some x.
Proof. rewrite nth_error_app2 by lia. rewrite Nat.sub_diag. reflexivity. Qed.
End Values.

Section Prefix.
Variable V R : Type.
Notation decl := (decl V R).
Variable veq : V -> V -> bool.
Hypothesis veq_eq : forall a b, veq a b = true <-> a = b.
Variable t : targets.
Notation handle := (prefix_handle V R veq t).

(** ** The last declaration of a property *)
Definition shape (k : nat) (s : pstate V R) : Prop :=
  Forall (foreign V R k) (dest s)
  \/ exists a b v ps, dest s = a ++ Parsed k v ps :: b /\ index s k = Some (length a) /\ Forall (foreign V R k) b.
Definition typed (k : nat) (d : decl) : Prop := match d with Unparsed k' _ _ => k' <> k | _ => True end.
(** The result of a step for the property [k] *)
Definition pushed (k : nat) (v : V) (p : pset) (s s' : pstate V R) : Prop :=
  exists ps, ps = prefixes t p k /\ dest s' = dest s ++ [Parsed k v ps] /\ index s' k = Some (length (dest s)).
Lemma push_pushed k v p s : pushed k v p s (push_parsed V R t s k v p).
Proof. exists (prefixes t p k). unfold push_parsed. cbn [dest index]. unfold upd. rewrite Nat.eqb_refl. repeat split. Qed.
Lemma handle_own k v p s : shape k s ->
  (pushed k v p s (handle s (Parsed k v p)) /\ (Forall (foreign V R k) (dest s)
     \/ exists a b cur ps, dest s = a ++ Parsed k cur ps :: b /\ index s k = Some (length a) /\ Forall (foreign V R k) b /\ veq v cur = false /\ includes ps p = false))
  \/ exists a b cur ps, dest s = a ++ Parsed k cur ps :: b /\ index s k = Some (length a) /\ Forall (foreign V R k) b
     /\ veq v cur || includes ps p = true
     /\ handle s (Parsed k v p) = PState (index s) (a ++ Parsed k v (prefixes t (union ps p) k) :: b).
Proof.
  intros [F|[a [b [cur [ps [E [I F]]]]]]]; cbn [prefix_handle].
  - left. split; [|left; exact F]. destruct (index s k) as [i|]; [|apply push_pushed].
    destruct (nth_error (dest s) i) as [d|] eqn:N; [|apply push_pushed]. apply nth_error_In in N. pose proof (proj1 (Forall_forall _ _) F d N) as Hd.
    destruct d as [k' c q|k' u q|n]; try apply push_pushed. cbn in Hd. apply Nat.eqb_neq in Hd. rewrite Hd. apply push_pushed.
  - rewrite I. rewrite E, nth_error_middle, Nat.eqb_refl. cbn [andb]. destruct (veq v cur || includes ps p) eqn:D.
    + right. exists a, b, cur, ps. split; [reflexivity|]. split; [reflexivity|]. split; [exact F|]. split; [exact D|]. f_equal.
      destruct (replace_split V R (a ++ Parsed k cur ps :: b) (length a) (Parsed k cur ps)) as [a' [b' [E1 [L1 H]]]]; [apply nth_error_middle|].
      rewrite H.
      assert (A : a = a' /\ b = b').
      { clear -E1 L1. revert a' E1 L1. induction a as [|x a IH]; intros [|y a'] E1 L1; cbn in *; try discriminate L1.
        - injection E1 as <-. split; reflexivity.
        - injection E1 as <- E1. injection L1 as L1. destruct (IH a' E1 L1) as [-> ->]. split; reflexivity. }
      destruct A as [-> ->]. reflexivity.
    + left. split; [apply push_pushed|]. right. apply orb_false_iff in D. exists a, b, cur, ps. tauto.
Qed.
Lemma shape_push k v p s s' : pushed k v p s s' -> shape k s'.
Proof. intros [ps [E [D I]]]. right. exists (dest s), [], v, ps. split; [exact D|]. split; [exact I|constructor]. Qed.
Lemma replace_foreign k i d l : Forall (foreign V R k) [d] -> Forall (foreign V R k) l -> Forall (foreign V R k) (replace V R l i d).
Proof.
  intros H F. unfold replace. apply Forall_app. split; [|constructor; [apply (Forall_inv H)|]].
  - apply Forall_forall. intros x I. apply (proj1 (Forall_forall _ _) F). rewrite <- (firstn_skipn i l). apply in_or_app. left. exact I.
  - apply Forall_forall. intros x I. apply (proj1 (Forall_forall _ _) F). rewrite <- (firstn_skipn (S i) l). apply in_or_app. right. exact I.
Qed.
(** Steps of other properties keep the declarations of [k] *)
Definition same_for (k : nat) (s s' : pstate V R) : Prop :=
  (forall W covers (br : browser V R W) x p o, (forall k', covers k' x = true -> k' = k) -> used_from covers br x p o (dest s') = used_from covers br x p o (dest s))
  /\ (Forall (foreign V R k) (dest s) -> Forall (foreign V R k) (dest s'))
  /\ (forall a b v ps, dest s = a ++ Parsed k v ps :: b -> index s k = Some (length a) -> Forall (foreign V R k) b ->
        exists a' b', dest s' = a' ++ Parsed k v ps :: b' /\ index s' k = Some (length a') /\ Forall (foreign V R k) b').
Lemma same_app k s d i : foreign V R k d -> i k = index s k -> same_for k s (PState i (dest s ++ [d])).
Proof.
  intros H E. split; [|split]; cbn [dest index].
  - intros W c br x p o C. rewrite used_app. apply used_foreign with (k := k); [exact C|repeat constructor; exact H].
  - intros F. apply Forall_app. split; [exact F|repeat constructor; exact H].
  - intros a b v ps D I F. exists a, (b ++ [d]). rewrite D, <- app_assoc. split; [reflexivity|]. split; [rewrite E; exact I|]. apply Forall_app. split; [exact F|repeat constructor; exact H].
Qed.
Lemma same_replace k s n d0 d : nth_error (dest s) n = Some d0 -> foreign V R k d0 -> foreign V R k d -> same_for k s (PState (index s) (replace V R (dest s) n d)).
Proof.
  intros N H0 H. destruct (replace_split V R (dest s) n d0 N) as [a [b [E [L Hr]]]]. rewrite Hr. split; [|split]; cbn [dest index].
  - intros W c br x p o C. rewrite E, !used_app, !used_cons. f_equal.
    assert (G : forall d, foreign V R k d -> gives c br x p d = None).
    { intros e He. destruct e as [k' v q|k' u q|m]; cbn in *; try reflexivity; destruct (c k' x) eqn:Ec; try reflexivity; apply C in Ec; contradiction. }
    rewrite (G d H), (G d0 H0). reflexivity.
  - intros F. rewrite E in F. apply Forall_app in F. destruct F as [F1 F2]. apply Forall_app. split; [exact F1|]. constructor; [exact H|exact (Forall_inv_tail F2)].
  - intros a' b' v ps D I F. rewrite E in D. subst n.
    assert (Q : (exists m, a = a' ++ Parsed k v ps :: m /\ b' = m ++ d0 :: b) \/ exists m, a' = a ++ d0 :: m /\ b = m ++ Parsed k v ps :: b').
    { assert (Hd : d0 <> Parsed k v ps) by (intros ->; cbn in H0; congruence). clear -D Hd. revert a' D. induction a as [|x a IH]; intros [|y a'] D; cbn in D.
      - injection D as D _. contradiction.
      - injection D as <- D. right. exists a'. split; [reflexivity|exact D].
      - injection D as -> D. left. exists a. split; [reflexivity|symmetry; exact D].
      - injection D as <- D. destruct (IH a' D) as [[m [-> ->]]|[m [-> ->]]]; [left|right]; exists m; split; reflexivity. }
    destruct Q as [[m [-> ->]]|[m [-> ->]]].
    + exists a', (m ++ d :: b). rewrite <- app_assoc. split; [reflexivity|]. split; [exact I|]. apply Forall_app in F. destruct F as [F1 F2]. apply Forall_app.
      split; [exact F1|]. constructor; [exact H|exact (Forall_inv_tail F2)].
    + exists (a ++ d :: m), b'. rewrite <- app_assoc. split; [reflexivity|]. split; [|exact F]. rewrite I. rewrite !app_length. reflexivity.
Qed.
Lemma handle_foreign k s d : foreign V R k d -> same_for k s (handle s d).
Proof.
  intros H. destruct d as [k' v p|k' u p|n]; cbn [prefix_handle]; try (apply same_app; [exact H|reflexivity]).
  assert (P : same_for k s (push_parsed V R t s k' v p)).
  { unfold push_parsed. apply same_app; [exact H|]. unfold upd. cbn in H. apply Nat.eqb_neq in H. rewrite H. reflexivity. }
  destruct (index s k') as [i|]; [|exact P]. destruct (nth_error (dest s) i) as [d0|] eqn:N; [|exact P]. destruct d0 as [k2 c q|k2 c q|m]; try exact P.
  destruct (Nat.eqb k2 k' && (veq v c || includes q p)) eqn:E; [|exact P]. apply andb_true_iff in E. destruct E as [E _]. apply Nat.eqb_eq in E. subst k2.
  apply same_replace with (d0 := Parsed k' c q); [exact N|exact H|exact H].
Qed.
Lemma shape_same k s s' : same_for k s s' -> shape k s -> shape k s'.
Proof.
  intros [_ [H1 H2]] [F|[a [b [v [ps [E [I F]]]]]]]; [left; apply H1; exact F|right].
  destruct (H2 a b v ps E I F) as [a' [b' [E' [I' F']]]]. exists a', b', v, ps. tauto.
Qed.
Lemma shape_handle k s d : typed k d -> shape k s -> shape k (handle s d).
Proof.
  intros T S0. destruct (match d with Parsed k' _ _ => Nat.eqb k' k | _ => false end) eqn:E.
  - destruct d as [k' v p|k' u p|n]; try discriminate E. apply Nat.eqb_eq in E. subst k'.
    destruct (handle_own k v p s S0) as [[P _]|[a [b [c [ps [D [I [F [_ H]]]]]]]]]; [apply (shape_push k v p s); exact P|].
    right. rewrite H. exists a, b, v, (prefixes t (union ps p) k). cbn [dest index]. split; [reflexivity|]. split; [exact I|exact F].
  - apply (shape_same k s); [|exact S0]. apply handle_foreign. destruct d as [k' v p|k' u p|n]; cbn in *; try exact I; [apply Nat.eqb_neq; exact E|exact T].
Qed.
Lemma shape_fold k l : Forall (typed k) l -> forall s, shape k s -> shape k (fold_left handle l s).
Proof. intros F. induction F as [|d r H F IH]; intros s S0; [exact S0|]. cbn [fold_left]. apply IH. apply shape_handle; assumption. Qed.

(** ** The unprefixed declaration comes last *)
Lemma has_prefixes ps k p : proper_table t -> has (prefixes t (single NoPrefix) k) p = true -> has (prefixes t (union ps (single NoPrefix)) k) p = true.
Proof.
  intros P. unfold prefixes. cbn [none single pfx_eqb union]. rewrite orb_true_r. cbn [andb]. destruct (negb (excluded t)); cbn [andb].
  - destruct (included t); [auto|]. destruct (needed t); [auto|]. rewrite has_union. intros ->. apply orb_true_r.
  - change (none (single NoPrefix)) with true. rewrite has_union. intros ->. apply orb_true_r.
Qed.
Theorem unprefixed_last W (br : browser V R W) old k l v p : modern br -> proper_table t -> Forall (typed k) l ->
  has (prefixes t (single NoPrefix) k) p = true ->
  used_from alone br k p None (prefix_minify V R veq t old (l ++ [Parsed k v (single NoPrefix)])) = Some (CVal (value br v)).
Proof.
  intros [M _] P T H. unfold prefix_minify. rewrite fold_left_app. cbn [fold_left].
  assert (S0 : shape k (fold_left handle l (PState old []))) by (apply shape_fold; [exact T|left; constructor]).
  assert (A : forall k', alone k' k = true -> k' = k) by (intros k' E; apply Nat.eqb_eq in E; exact E).
  destruct (handle_own k v (single NoPrefix) _ S0) as [[[ps [E [D _]]] _]|[a [b [c [ps [D [I [F [_ E]]]]]]]]].
  - rewrite D, used_app, used_cons. cbn [gives]. unfold alone at 1. rewrite Nat.eqb_refl. cbn [andb]. rewrite E, H, M. reflexivity.
  - rewrite E. cbn [dest]. rewrite used_app, used_cons. cbn [gives]. unfold alone at 2. rewrite Nat.eqb_refl. cbn [andb]. rewrite (has_prefixes ps k p P H), M. cbn [andb].
    apply used_foreign with (k := k); assumption.
Qed.

(** ** Without targets *)
Hypothesis no_targets : needed t = None /\ (included t = false \/ excluded t = true).
Lemma prefixes_id p k : prefixes t p k = p.
Proof. unfold prefixes. destruct no_targets as [-> [-> | ->]]; [destruct (none p && negb (excluded t))|rewrite andb_false_r]; reflexivity. Qed.
Variable W : Type.
Variable br : browser V R W.
Hypothesis br_modern : modern br.
(** Different values have different meanings *)
Hypothesis distinct : forall v v', value br v = value br v' -> v = v'.
Notation used := (used_from alone br).
Lemma alone_eq k k' : alone k' k = true -> k' = k. Proof. apply Nat.eqb_eq. Qed.
Lemma used_last_own k p o l v s : used k p o (l ++ [Parsed k v s]) = if has s p then Some (CVal (value br v)) else used k p o l.
Proof. rewrite used_app, used_cons. cbn [gives]. unfold alone at 1. rewrite Nat.eqb_refl, (proj1 br_modern). cbn [andb]. rewrite andb_true_r. destruct (has s p); reflexivity. Qed.

Definition good (k : nat) (l : list decl) (s : pstate V R) : Prop :=
  (forall p, used k p None (dest s) = used k p None l)
  /\ (forall a b v ps, dest s = a ++ Parsed k v ps :: b -> index s k = Some (length a) -> Forall (foreign V R k) b ->
       forall p, has ps p = true -> used k p None l = Some (CVal (value br v))).
Lemma good_step k l s d : shape k s -> good k l s -> written k d ->
  (forall v p, d = Parsed k v (single p) -> forall u, used k p None l = Some (CVal u) -> u <> value br v -> forall q, q <> p -> used k q None l <> Some (CVal u)) ->
  good k (l ++ [d]) (handle s d).
Proof.
  intros S0 [G1 G2] Hw St. destruct (match d with Parsed k' _ _ => Nat.eqb k' k | _ => false end) eqn:E.
  - destruct d as [k' v p0|k' u p0|n]; try discriminate E. apply Nat.eqb_eq in E. subst k'. cbn in Hw. destruct (Hw eq_refl) as [p ->]. clear Hw. specialize (St v p eq_refl).
    assert (Own : forall q, used k q None (l ++ [Parsed k v (single p)]) = if pfx_eqb p q then Some (CVal (value br v)) else used k q None l).
    { intros q. rewrite used_last_own, has_single. reflexivity. }
    destruct (handle_own k v (single p) s S0) as [[[ps [Ep [D I]]] _]|[a [b [c [ps [D [I [F [C H]]]]]]]]].
    + rewrite prefixes_id in Ep. subst ps. split.
      * intros q. rewrite D, Own, used_last_own, has_single, G1. reflexivity.
      * intros a b w ps D2 I2 F2 q Hq. rewrite D in D2. rewrite I in I2. injection I2 as I2.
        pose proof (nth_error_middle a (Parsed k w ps) b) as N. rewrite <- D2, <- I2, nth_error_middle in N. injection N as <- <-.
        rewrite Own. rewrite has_single in Hq. rewrite Hq. reflexivity.
    + assert (G2' := G2 a b c ps D I F). rewrite H. rewrite prefixes_id.
      assert (Only : value br v <> value br c -> forall q, has ps q = true -> q = p).
      { intros Nv q Hq. apply orb_true_iff in C. destruct C as [C|C]; [apply veq_eq in C; subst; contradiction|]. rewrite includes_single in C.
        destruct (pfx_eqb q p) eqn:Eq; [apply pfx_eqb_eq; exact Eq|]. exfalso. apply (St (value br c) (G2' p C)) with (q := q); [congruence| |apply G2'; exact Hq].
        intros ->. rewrite (proj2 (pfx_eqb_eq p p) eq_refl) in Eq. discriminate Eq. }
      assert (Dv : value br v = value br c \/ value br v <> value br c).
      { destruct (veq v c) eqn:Ev; [left; apply veq_eq in Ev; rewrite Ev; reflexivity|right]. intros E. apply distinct in E. subst c. rewrite (proj2 (veq_eq v v) eq_refl) in Ev. discriminate Ev. }
      assert (G1' : forall q, used k q None l = if has ps q then Some (CVal (value br c)) else used k q None a).
      { intros q. rewrite <- G1, D, used_app, used_cons, (used_foreign V R W alone br k k q b (alone_eq k) F). cbn [gives].
        unfold alone at 1. rewrite Nat.eqb_refl, (proj1 br_modern). cbn [andb]. rewrite andb_true_r. destruct (has ps q); reflexivity. }
      assert (New : forall q, has (union ps (single p)) q = true -> used k q None (l ++ [Parsed k v (single p)]) = Some (CVal (value br v))).
      { intros q Hq. rewrite has_union, has_single in Hq. rewrite Own. destruct (pfx_eqb p q) eqn:Epq; [reflexivity|]. rewrite orb_false_r in Hq.
        destruct Dv as [Ev|Nv]; [rewrite Ev; apply G2'; exact Hq|]. rewrite (Only Nv q Hq) in Epq. rewrite (proj2 (pfx_eqb_eq p p) eq_refl) in Epq. discriminate Epq. }
      unfold good. cbn [dest index]. split.
      * intros q. rewrite (used_app V R W alone br k q None a), used_cons, (used_foreign V R W alone br k k q b (alone_eq k) F). cbn [gives dest]. unfold alone at 1.
        rewrite Nat.eqb_refl, (proj1 br_modern). cbn [andb]. rewrite andb_true_r. destruct (has (union ps (single p)) q) eqn:Hq.
        -- symmetry. apply New. exact Hq.
        -- rewrite Own. rewrite has_union, has_single in Hq. apply orb_false_iff in Hq. destruct Hq as [Hq ->]. rewrite G1', Hq. reflexivity.
      * intros a2 b2 w ps2 D2 I2 F2 q Hq. rewrite I in I2. injection I2 as I2.
        pose proof (nth_error_middle a2 (Parsed k w ps2) b2) as N. rewrite <- D2, <- I2, nth_error_middle in N. injection N as <- <-. apply New. exact Hq.
  - assert (Fd : foreign V R k d) by (destruct d as [k' v p|k' u p|n]; cbn in *; try exact I; [apply Nat.eqb_neq; exact E|exact Hw]).
    destruct (handle_foreign k s d Fd) as [H1 [H2 H3]]. pose proof (fun p o => used_foreign V R W alone br k k p [d] (alone_eq k) (Forall_cons _ Fd (Forall_nil _)) o) as Hd. split.
    + intros p. rewrite H1 by apply alone_eq. rewrite used_app, Hd. apply G1.
    + intros a b v ps D2 I2 F2 p Hp. rewrite used_app, Hd.
      destruct S0 as [F|[a' [b' [v' [ps' [E' [I' F']]]]]]].
      * exfalso. pose proof (H2 F) as F0. rewrite D2 in F0. apply Forall_app in F0. destruct F0 as [_ F0]. apply Forall_inv in F0. cbn in F0. congruence.
      * destruct (H3 a' b' v' ps' E' I' F') as [a3 [b3 [E3 [I3 F3]]]]. rewrite I2 in I3. injection I3 as I3.
        pose proof (nth_error_middle a (Parsed k v ps) b) as N. rewrite <- D2, E3, I3, nth_error_middle in N. injection N as -> ->.
        apply (G2 a' b' v ps E' I' F' p Hp).
Qed.
Lemma good_fold k : forall l m s, shape k s -> good k m s -> Forall (written k) l ->
  (forall l1 v p l2, l = l1 ++ Parsed k v (single p) :: l2 -> forall u, used k p None (m ++ l1) = Some (CVal u) -> u <> value br v -> forall q, q <> p -> used k q None (m ++ l1) <> Some (CVal u)) ->
  good k (m ++ l) (fold_left handle l s).
Proof.
  induction l as [|d r IH]; intros m s S0 G Hw St; [rewrite app_nil_r; exact G|]. cbn [fold_left].
  replace (m ++ d :: r) with ((m ++ [d]) ++ r) by (rewrite <- app_assoc; reflexivity). apply IH.
  - apply shape_handle; [|exact S0]. pose proof (Forall_inv Hw) as Hd0. destruct d; cbn in *; auto.
  - apply good_step; [exact S0|exact G|exact (Forall_inv Hw)|]. intros v p ->. pose proof (St [] v p r eq_refl) as H. rewrite app_nil_r in H. exact H.
  - exact (Forall_inv_tail Hw).
  - intros l1 v p l2 ->. pose proof (St (d :: l1) v p l2 eq_refl) as H. rewrite <- app_assoc. exact H.
Qed.
Theorem steady_used old k l p : Forall (written k) l -> steady alone br k l -> used k p None (prefix_minify V R veq t old l) = used k p None l.
Proof.
  intros Hw St. unfold prefix_minify. assert (G : good k l (fold_left handle l (PState old []))); [|apply G].
  change l with ([] ++ l) at 1. apply good_fold; [left; constructor| |exact Hw|].
  - split; [reflexivity|]. intros a b v ps D. destruct a; discriminate D.
  - intros l1 v q l2 E u. exact (St l1 v q l2 E u).
Qed.
End Prefix.

(** ** The fallback handler *)
Section Fallback.
Variable V R : Type.
Notation decl := (decl V R).
Notation pstate := (pstate V R).
Variable t : targets.
Variable compat : V -> bool.
Variable fallbacks : V -> list V * V.
Variable prefixed : nat -> bool.
Notation handle := (fallback_handle V R t compat fallbacks prefixed).
Definition key (d : decl) : option nat := match d with Parsed k _ _ | Unparsed k _ _ => Some k | Other _ => None end.
Definition away (k : nat) (d : decl) : Prop := key d <> Some k.
Lemma away_foreign k d : away k d <-> foreign V R k d.
Proof. unfold away, foreign. destruct d; cbn; split; intros H; try congruence; exact I. Qed.
Definition at_index (k : nat) (s : pstate) : Prop :=
  (index s k = None /\ Forall (away k) (dest s))
  \/ exists a d b, dest s = a ++ d :: b /\ key d = Some k /\ index s k = Some (length a) /\ Forall (away k) b.
Definition ok (s : pstate) : Prop := forall k, at_index k s.

Lemma ok_push k s ds d : ok s -> Forall (fun d => key d = Some k) (ds ++ [d]) ->
  ok (PState (upd k (length (dest s ++ ds)) (index s)) ((dest s ++ ds) ++ [d])).
Proof.
  intros H K j. apply Forall_app in K. destruct K as [K1 K2]. apply Forall_inv in K2. unfold at_index. cbn [dest index]. unfold upd.
  destruct (Nat.eqb k j) eqn:E.
  - apply Nat.eqb_eq in E. subst j. right. exists (dest s ++ ds), d, []. repeat split; [exact K2|constructor].
  - apply Nat.eqb_neq in E. assert (A : Forall (away j) (ds ++ [d])).
    { apply Forall_app. split; [|repeat constructor; unfold away; congruence]. apply Forall_forall. intros e I. unfold away. rewrite (proj1 (Forall_forall _ _) K1 e I). congruence. }
    rewrite <- app_assoc. destruct (H j) as [[I F]|[a [e [b [D [Ke [I F]]]]]]].
    + left. split; [exact I|]. apply Forall_app. split; assumption.
    + right. exists a, e, (b ++ ds ++ [d]). rewrite D, <- app_assoc. repeat split; try assumption. apply Forall_app. split; assumption.
Qed.
Lemma ok_other s d : ok s -> key d = None -> ok (PState (index s) (dest s ++ [d])).
Proof.
  intros H K j. unfold at_index. cbn [dest index]. assert (A : away j d) by (unfold away; rewrite K; discriminate).
  destruct (H j) as [[I F]|[a [e [b [D [Ke [I F]]]]]]].
  - left. split; [exact I|]. apply Forall_app. split; [exact F|repeat constructor; exact A].
  - right. exists a, e, (b ++ [d]). rewrite D, <- app_assoc. repeat split; try assumption. apply Forall_app. split; [exact F|repeat constructor; exact A].
Qed.
Lemma middle_split {A} (a a' : list A) x y b b' : a ++ x :: b = a' ++ y :: b' -> length a = length a' -> a = a' /\ x = y /\ b = b'.
Proof.
  revert a'. induction a as [|z a IH]; intros [|w a'] E L; cbn in *; try discriminate L.
  - injection E as -> ->. repeat split.
  - injection E as -> E. injection L as L. destruct (IH a' E L) as [-> [-> ->]]. repeat split.
Qed.
Lemma replace_middle (a : list decl) d b d' : replace V R (a ++ d :: b) (length a) d' = a ++ d' :: b.
Proof.
  destruct (replace_split V R (a ++ d :: b) (length a) d (nth_error_middle a d b)) as [a' [b' [E [L H]]]]. rewrite H.
  destruct (middle_split a a' d d b b' E (eq_sym L)) as [-> [_ ->]]. reflexivity.
Qed.
Lemma ok_replace k s i d : ok s -> index s k = Some i -> key d = Some k -> ok (PState (index s) (replace V R (dest s) i d)).
Proof.
  intros H I K j. destruct (H k) as [[I' _]|[a [e [b [D [Ke [I' F]]]]]]]; [congruence|]. rewrite I in I'. injection I' as ->.
  rewrite D, replace_middle. unfold at_index. cbn [dest index]. destruct (Nat.eqb k j) eqn:E.
  - apply Nat.eqb_eq in E. subst j. right. exists a, d, b. repeat split; assumption.
  - apply Nat.eqb_neq in E. assert (A : away j d) by (unfold away; congruence). destruct (H j) as [[Ij Fj]|[a' [e' [b' [D' [Ke' [Ij Fj]]]]]]].
    + left. split; [exact Ij|]. rewrite D in Fj. apply Forall_app in Fj. destruct Fj as [F1 F2]. apply Forall_app. split; [exact F1|]. constructor; [exact A|exact (Forall_inv_tail F2)].
    + right. rewrite D in D'.
      assert (Q : (exists m, a = a' ++ e' :: m /\ b' = m ++ e :: b) \/ exists m, a' = a ++ e :: m /\ b = m ++ e' :: b').
      { assert (He : e <> e') by (intros ->; congruence). clear -D' He. revert a' D'. induction a as [|x a IH]; intros [|y a'] D; cbn in D.
        - injection D as D _. contradiction.
        - injection D as <- D. right. exists a'. split; [reflexivity|exact D].
        - injection D as -> D. left. exists a. split; [reflexivity|symmetry; exact D].
        - injection D as <- D. destruct (IH a' D) as [[m [-> ->]]|[m [-> ->]]]; [left|right]; exists m; split; reflexivity. }
      destruct Q as [[m [-> ->]]|[m [-> ->]]].
      * exists a', e', (m ++ d :: b). rewrite <- app_assoc. repeat split; try assumption. apply Forall_app in Fj. destruct Fj as [F1 F2]. apply Forall_app.
        split; [exact F1|]. constructor; [exact A|exact (Forall_inv_tail F2)].
      * exists (a ++ d :: m), e', b'. rewrite <- app_assoc. repeat split; try assumption. rewrite Ij. rewrite !app_length. reflexivity.
Qed.

Variable W : Type.
Variable br : browser V R W.
Hypothesis br_compat : forall v, compat v = true -> knows br v = true.
Hypothesis br_raw : forall u, knows_raw br u = true.
Hypothesis br_fallbacks : forall v, fst (fallbacks v) = [] \/ knows br v = true.
Hypothesis br_same : forall v, knows br (snd (fallbacks v)) = knows br v /\ value br (snd (fallbacks v)) = value br v.
Hypothesis table : proper_table t.
Notation used k := (used_from alone br k NoPrefix None).
Lemma used_away k (b : list decl) o : Forall (away k) b -> used_from alone br k NoPrefix o b = o.
Proof. intros F. apply used_foreign with (k := k); [apply alone_eq|]. eapply Forall_impl; [|exact F]. intros d. apply away_foreign. Qed.
Lemma gives_away k d : away k d -> gives alone br k NoPrefix d = None.
Proof. intros H. destruct d as [j v s|j u s|n]; cbn [gives key] in *; try reflexivity; unfold alone; destruct (Nat.eqb j k) eqn:E; try reflexivity; apply Nat.eqb_eq in E; subst; cbn in H; unfold away in H; cbn in H; congruence. Qed.

(** Steps, for a property [k] whose declarations have no prefix *)
Lemma none_prefixes k : none (prefixes t (single NoPrefix) k) = true.
Proof.
  unfold prefixes. cbn [none single pfx_eqb]. cbn [andb]. destruct (negb (excluded t)); [|reflexivity]. destruct (included t); [reflexivity|].
  destruct (needed t) as [f|] eqn:E; [|reflexivity]. apply (table f E).
Qed.
Lemma used_replace k s i d c : ok s -> index s k = Some i -> gives alone br k NoPrefix d = Some c -> used k (replace V R (dest s) i d) = Some c.
Proof.
  intros H I G. destruct (H k) as [[I' _]|[a [e [b [D [Ke [I' F]]]]]]]; [congruence|]. rewrite I in I'. injection I' as ->.
  rewrite D, replace_middle, used_app, used_cons, G. apply used_away. exact F.
Qed.
Lemma used_replace_other k j s i d : k <> j -> ok s -> index s j = Some i -> key d = Some j -> used k (replace V R (dest s) i d) = used k (dest s).
Proof.
  intros N H I K. destruct (H j) as [[I' _]|[a [e [b [D [Ke [I' F]]]]]]]; [congruence|]. rewrite I in I'. injection I' as ->.
  rewrite D, replace_middle, !used_app, !used_cons, !gives_away; [reflexivity| |]; unfold away; congruence.
Qed.
Lemma used_fallbacks k v p l o : none p = true -> (l = [] \/ knows br v = true) ->
  forall p', none p' = true ->
  used_from alone br k NoPrefix o (map (fun x => Parsed k x p) l ++ [Parsed k v p' : decl]) = if knows br v then Some (CVal (value br v)) else o.
Proof.
  intros Hp H p' Hp'. rewrite used_app, used_cons. cbn [gives has]. unfold alone at 1. rewrite Nat.eqb_refl, Hp'. cbn [andb].
  destruct H as [-> |H]; [destruct (knows br v); reflexivity|rewrite H; reflexivity].
Qed.

Lemma fallback_step k l s d : ok s -> used k (dest s) = used k l -> unprefixed k d ->
  ok (handle s d) /\ used k (dest (handle s d)) = used k (l ++ [d]).
Proof.
  intros H G U. rewrite used_app. change (used_from alone br k NoPrefix (used k l) [d]) with (match gives alone br k NoPrefix d with Some c => Some c | None => used k l end).
  destruct d as [j v p|j u p|n]; cbn [fallback_handle].
  - set (q := if prefixed j then prefixes t p j else p).
    assert (Hq : j = k -> none q = true).
    { intros ->. cbn in U. unfold q. rewrite (U eq_refl). destruct (prefixed k); [apply none_prefixes|reflexivity]. }
    assert (Hg : gives alone br k NoPrefix (Parsed j v p) = if Nat.eqb j k then (if knows br v then Some (CVal (value br v)) else None) else None).
    { cbn [gives]. unfold alone. destruct (Nat.eqb j k) eqn:E; [|reflexivity]. apply Nat.eqb_eq in E. cbn in U. rewrite (U E). reflexivity. }
    rewrite Hg. clear Hg. destruct (index s j) as [i|] eqn:I.
    + destruct (compat v) eqn:C.
      * split; [apply ok_replace with (k := j); [exact H|exact I|reflexivity]|]. cbn [dest]. destruct (Nat.eqb j k) eqn:E.
        -- apply Nat.eqb_eq in E. subst j. rewrite (used_replace k s i (Parsed k v q) (CVal (value br v)) H I); [rewrite (br_compat v C); reflexivity|].
           cbn [gives has]. unfold alone. rewrite Nat.eqb_refl, (Hq eq_refl), (br_compat v C). reflexivity.
        -- apply Nat.eqb_neq in E. rewrite (used_replace_other k j s i); [exact G|congruence|exact H|exact I|reflexivity].
      * split. { pose proof (ok_push j s [] (Parsed j v q) H) as O1. rewrite app_nil_r in O1. apply O1. repeat constructor. }
        cbn [dest]. rewrite used_app, used_cons, G.
        assert (Hgq : gives alone br k NoPrefix (Parsed j v q) = if Nat.eqb j k then (if knows br v then Some (CVal (value br v)) else None) else None).
        { cbn [gives has]. unfold alone. destruct (Nat.eqb j k) eqn:E; [|reflexivity]. apply Nat.eqb_eq in E. rewrite (Hq E). reflexivity. }
        rewrite Hgq. reflexivity.
    + pose proof (br_fallbacks v) as B1. pose proof (br_same v) as B2. destruct (fallbacks v) as [fs v'] eqn:Ef. cbn [fst snd] in *. destruct B2 as [B2 B3].
      set (p' := if prefixed j && negb (match fs with [] => true | _ => false end) && none q then single NoPrefix else q).
      assert (Hp' : j = k -> none p' = true). { intros E. unfold p'. destruct (prefixed j && _ && none q); [reflexivity|exact (Hq E)]. }
      split.
      * apply ok_push; [exact H|]. apply Forall_app. split; [|repeat constructor]. apply Forall_forall. intros e Ie. apply in_map_iff in Ie. destruct Ie as [x [<- _]]. reflexivity.
      * cbn [dest]. rewrite <- app_assoc, used_app. destruct (Nat.eqb j k) eqn:E.
        -- apply Nat.eqb_eq in E. subst j. rewrite used_fallbacks; [|auto|rewrite B2; exact B1|auto]. rewrite B2, B3, G. destruct (knows br v); reflexivity.
        -- apply Nat.eqb_neq in E. rewrite used_away; [exact G|]. apply Forall_app. split; [|repeat constructor; unfold away; cbn; congruence].
           apply Forall_forall. intros e Ie. apply in_map_iff in Ie. destruct Ie as [x [<- _]]. unfold away. cbn. congruence.
  - set (q := if prefixed j && none p then prefixes t p j else p). unfold set_fallback.
    assert (Hg : gives alone br k NoPrefix (Unparsed j u p) = if Nat.eqb j k then Some (CRaw u) else None).
    { cbn [gives]. unfold alone. destruct (Nat.eqb j k) eqn:E; [|reflexivity]. apply Nat.eqb_eq in E. cbn in U. rewrite (U E), br_raw. reflexivity. }
    assert (Hg' : gives alone br k NoPrefix (Unparsed j u q) = if Nat.eqb j k then Some (CRaw u) else None).
    { cbn [gives]. unfold alone. destruct (Nat.eqb j k) eqn:E; [|reflexivity]. apply Nat.eqb_eq in E. subst j. cbn in U. unfold q. rewrite (U eq_refl), br_raw.
      change (none (single NoPrefix)) with true. destruct (prefixed k); cbn [andb has]; rewrite ?none_prefixes; reflexivity. }
    rewrite Hg. destruct (index s j) as [i|] eqn:I; cbn [dest].
    + split; [apply ok_replace with (k := j); [exact H|exact I|reflexivity]|]. destruct (Nat.eqb j k) eqn:E.
      * apply Nat.eqb_eq in E. subst j. apply used_replace; assumption.
      * apply Nat.eqb_neq in E. rewrite (used_replace_other k j s i); [exact G|congruence|exact H|exact I|reflexivity].
    + split. { pose proof (ok_push j s [] (Unparsed j u q) H) as O1. rewrite app_nil_r in O1. apply O1. repeat constructor. }
      rewrite used_app, used_cons, Hg', G. destruct (Nat.eqb j k); reflexivity.
  - split; [apply ok_other; [exact H|reflexivity]|]. cbn [dest]. rewrite used_app, G. reflexivity.
Qed.
Theorem fallback_used k l : Forall (unprefixed k) l -> used k (fallback_minify V R t compat fallbacks prefixed l) = used k l.
Proof.
  intros U. unfold fallback_minify.
  assert (Q : forall l m s, Forall (unprefixed k) l -> ok s -> used k (dest s) = used k m -> used k (dest (fold_left handle l s)) = used k (m ++ l)).
  { clear l U. induction l as [|d r IH]; intros m s U H G; [rewrite app_nil_r; exact G|]. cbn [fold_left].
    destruct (fallback_step k m s d H G (Forall_inv U)) as [H1 G1]. rewrite (IH (m ++ [d]) _ (Forall_inv_tail U) H1 G1), <- app_assoc. reflexivity. }
  apply (Q l [] (PState (fun _ => None) [])); [exact U| |reflexivity]. intros j. left. split; [reflexivity|constructor].
Qed.
End Fallback.

(** ** No new values *)
Section Values2.
Variable V R : Type.
Variable veq : V -> V -> bool.
Variable t : targets.
Definition from (l : list (decl V R)) (d : decl V R) : Prop :=
  match d with Parsed k v _ => exists s, In (Parsed k v s) l | _ => In d l end.
Lemma from_app l m d : from l d -> from (l ++ m) d.
Proof. destruct d; cbn; try (intros H; apply in_or_app; left; exact H). intros [s0 H]. exists s0. apply in_or_app. left. exact H. Qed.
Lemma from_last l d : from (l ++ [d]) d.
Proof. destruct d; cbn; try (apply in_or_app; right; left; reflexivity). eexists. apply in_or_app. right. left. reflexivity. Qed.
Lemma handle_from l s d : Forall (from l) (dest s) -> Forall (from (l ++ [d])) (dest (prefix_handle V R veq t s d)).
Proof.
  intros F. assert (F' : Forall (from (l ++ [d])) (dest s)) by (eapply Forall_impl; [|exact F]; intros e; apply from_app).
  destruct d as [k v p|k u p|n]; cbn [prefix_handle]; try (cbn [dest]; apply Forall_app; split; [exact F'|repeat constructor; apply from_last]).
  assert (P : Forall (from (l ++ [Parsed k v p])) (dest (push_parsed V R t s k v p))).
  { cbn [dest push_parsed]. apply Forall_app. split; [exact F'|repeat constructor]. cbn. exists p. apply in_or_app. right. left. reflexivity. }
  destruct (index s k) as [i|]; [|exact P]. destruct (nth_error (dest s) i) as [[k2 c q|k2 c q|m]|]; try exact P.
  destruct (Nat.eqb k2 k && (veq v c || includes q p)); [|exact P]. cbn [dest]. unfold replace. apply Forall_app. split; [|constructor].
  - apply Forall_forall. intros e I. apply (proj1 (Forall_forall _ _) F'). rewrite <- (firstn_skipn i (dest s)). apply in_or_app. left. exact I.
  - cbn. exists p. apply in_or_app. right. left. reflexivity.
  - apply Forall_forall. intros e I. apply (proj1 (Forall_forall _ _) F'). rewrite <- (firstn_skipn (S i) (dest s)). apply in_or_app. right. exact I.
Qed.
Theorem prefix_from old l k v s : In (Parsed k v s) (prefix_minify V R veq t old l) -> exists s', In (Parsed k v s') l.
Proof.
  intros H. assert (Q : forall l m s, Forall (from m) (dest s) -> Forall (from (m ++ l)) (dest (fold_left (prefix_handle V R veq t) l s))).
  { clear. induction l as [|d r IH]; intros m s F; [rewrite app_nil_r; exact F|]. cbn [fold_left]. replace (m ++ d :: r) with ((m ++ [d]) ++ r) by (rewrite <- app_assoc; reflexivity).
    apply IH. apply handle_from. exact F. }
  specialize (Q l [] (PState old []) (Forall_nil _)). exact (proj1 (Forall_forall _ _) Q _ H).
Qed.
End Values2.
