(** * The prefix handler and the fallback handler in a block *)
From Coq Require Import List Bool PeanoNat Lia.
From Verif Require PrefixSpec PrefixProofs.
From Verif Require Import PrefixModel BlockModel BlockSpec BlockHandlers BlockValueSpec BlockProofs BlockIndexProofs BlockPartProofs BlockBoxProofs.
Import ListNotations.

Lemma mine_kept {A R} O (d : decl A R) : mine O d = true -> kept O d = true.
Proof. destruct d; cbn; auto. Qed.
(** ** Indices in the shared list and in the list of the handler's own declarations *)
Section Links.
Context {A R : Type}.
Notation decl := (decl A R).
Variable O : A -> bool.
(** A declaration of the property [k] that the handler may replace *)
Variable P : nat -> decl -> Prop.
Hypothesis P_mine : forall k d, P k d -> mine O d = true.
Hypothesis P_one : forall j k d, P j d -> P k d -> j = k.
Notation K := (kept O).
Definition link (s : nat -> option nat) (ds : list decl) (s' : nat -> option nat) (k : nat) : Prop :=
  (s k = None /\ s' k = None)
  \/ (exists i d, s k = Some i /\ nth_error ds i = Some d /\ P k d /\ s' k = Some (at_ K ds i))
  \/ (forall d, P k d -> ~ In d ds).

Lemma P_kept k d : P k d -> K d = true.
Proof. intros H. apply mine_kept. exact (P_mine k d H). Qed.
Lemma nth_lt (l : list decl) i d : nth_error l i = Some d -> i < length l.
Proof. intros H. apply nth_error_Some. rewrite H. discriminate. Qed.
Lemma link_apart s ds s' k e : link s ds s' k -> apart K ds e -> link s e s' k.
Proof.
  intros [H|[[i [d [H1 [H2 [H3 H4]]]]]|H]] F.
  - left. exact H.
  - right. left. exists i, d. split; [exact H1|]. split; [exact (apart_nth K ds e i d F H2 (P_kept k d H3))|]. split; [exact H3|].
    rewrite (at_apart K ds e i F); [exact H4|]. apply nth_lt in H2. lia.
  - right. right. intros d Pd I. apply (H d Pd). assert (J : In d (filter K e)) by (apply filter_In; split; [exact I|exact (P_kept k d Pd)]).
    rewrite (apart_filter K ds e F) in J. apply filter_In in J. apply J.
Qed.
Lemma link_append s ds s' k e : link s ds s' k -> (forall d, P k d -> ~ In d e) -> link s (ds ++ e) s' k.
Proof.
  intros [H|[[i [d [H1 [H2 [H3 H4]]]]]|H]] F.
  - left. exact H.
  - right. left. exists i, d. pose proof (nth_lt _ _ _ H2) as L. split; [exact H1|]. split; [rewrite nth_error_app1 by exact L; exact H2|]. split; [exact H3|].
    rewrite at_app by lia. exact H4.
  - right. right. intros d Pd I. apply in_app_or in I. destruct I as [I|I]; [exact (H d Pd I)|exact (F d Pd I)].
Qed.
(** New declarations of one property at the end, with the index of the last *)
Lemma link_push s ds s' e d k : (forall j, link s ds s' j) -> Forall (P k) e -> P k d ->
  forall j, link (slot k (length (ds ++ e)) s) ((ds ++ e) ++ [d]) (slot k (length (filter K ds ++ e)) s') j.
Proof.
  intros L Pe Pd j. unfold slot. destruct (Nat.eqb k j) eqn:E.
  - apply Nat.eqb_eq in E. subst j. right. left. exists (length (ds ++ e)), d. split; [rewrite Nat.eqb_refl; reflexivity|].
    split; [rewrite nth_error_app2, Nat.sub_diag by lia; reflexivity|]. split; [exact Pd|]. rewrite Nat.eqb_refl, at_end, filter_app.
    rewrite (filter_all K e); [reflexivity|]. eapply Forall_impl; [|exact Pe]. intros x. apply P_kept.
  - assert (N : k <> j) by (apply Nat.eqb_neq; exact E).
    assert (Q : link s ((ds ++ e) ++ [d]) s' j).
    { rewrite <- app_assoc. apply link_append; [apply L|]. intros x Px I. apply in_app_or in I. destruct I as [I|[<-|[]]].
      - rewrite Forall_forall in Pe. apply N. exact (P_one k j x (Pe x I) Px).
      - apply N. exact (P_one k j _ Pd Px). }
    destruct Q as [Q|[[i [x Q]]|Q]]; [left; rewrite E; exact Q|right; left; exists i, x; rewrite E; exact Q|right; right; exact Q].
Qed.
(** A declaration is replaced *)
Lemma link_replace s ds s' k i d e : (forall j, link s ds s' j) -> nth_error ds i = Some d -> P k d -> s k = Some i -> s' k = Some (at_ K ds i) -> P k e ->
  forall j, link s (replace ds i e) s' j.
Proof.
  intros L N Pd Sk Sk' Pe j. pose proof (nth_lt _ _ _ N) as Lt. destruct (Nat.eq_dec j k) as [->|D].
  - right. left. exists i, e. split; [exact Sk|]. split; [rewrite replace_nth, Nat.eqb_refl by exact Lt; reflexivity|]. split; [exact Pe|].
    rewrite (at_replace K ds i d e i N (P_kept k d Pd) (P_kept k e Pe)). exact Sk'.
  - destruct (L j) as [H|[[n [x [H1 [H2 [H3 H4]]]]]|H]].
    + left. exact H.
    + right. left. exists n, x. split; [exact H1|]. split.
      * rewrite replace_nth by exact Lt. destruct (Nat.eqb i n) eqn:E; [|exact H2]. apply Nat.eqb_eq in E. subst n. rewrite N in H2. injection H2 as ->.
        destruct D. exact (P_one j k x H3 Pd).
      * split; [exact H3|]. rewrite (at_replace K ds i d e n N (P_kept k d Pd) (P_kept k e Pe)). exact H4.
    + right. right. intros x Px I. unfold replace in I. apply in_app_or in I. destruct I as [I|[<-|I]].
      * apply (H x Px). rewrite <- (firstn_skipn i ds). apply in_or_app. left. exact I.
      * apply D. exact (P_one j k _ Px Pe).
      * apply (H x Px). rewrite <- (firstn_skipn (Datatypes.S i) ds). apply in_or_app. right. exact I.
Qed.
Lemma mine_apart_push ds (e : list decl) : Forall (fun d => mine O d = true) e -> apart (fun d => negb (mine O d)) ds (ds ++ e).
Proof. intros F. apply apart_app. eapply Forall_impl; [|exact F]. cbn. intros d ->. reflexivity. Qed.
Lemma mine_apart_replace ds i d (e : decl) : nth_error ds i = Some d -> mine O d = true -> mine O e = true -> apart (fun d => negb (mine O d)) ds (replace ds i e).
Proof. intros N D E. apply (apart_replace _ ds i d e N); [rewrite D|rewrite E]; reflexivity. Qed.
End Links.

Section Prefix.
Context {V R Cond : Type}.
Variable c : config V R Cond.
Notation A := (prop V R).
Notation decl := (decl A R).

Definition parsed_at (k : nat) (d : decl) : Prop := exists v s, d = Plain (Prefixed false k v s).
Lemma parsed_mine k d : parsed_at k d -> mine (prefix_owns false) d = true.
Proof. intros [v [s ->]]. reflexivity. Qed.
Lemma parsed_one j k d : parsed_at j d -> parsed_at k d -> j = k.
Proof. intros [v [s ->]] [v' [s' E]]. injection E. auto. Qed.

Lemma push_like s ds s' k v p : (forall j, link (prefix_owns false) parsed_at s ds s' j) ->
  let '(t, e, x) := push_prefixed c s ds k v p in let '(t', e', x') := push_prefixed c s' (filter (kept (prefix_owns false)) ds) k v p in
  ((forall j, link (prefix_owns false) parsed_at t e t' j) /\ e' = filter (kept (prefix_owns false)) e)
  /\ apart (fun d => negb (mine (prefix_owns false) d)) ds e /\ x = x' /\ Forall (fun r : place Cond * decl => mine (prefix_owns false) (snd r) = true) x.
Proof.
  intros L. unfold push_prefixed. split; [split|split; [|split; [reflexivity|constructor]]].
  - pose proof (link_push (prefix_owns false) parsed_at parsed_mine parsed_one s ds s' [] (Plain (Prefixed false k v (prefixes (prefix_targets c) p k))) k L (Forall_nil _)) as H.
    rewrite !app_nil_r in H. apply H. eexists. eexists. reflexivity.
  - rewrite filter_app. reflexivity.
  - apply mine_apart_push. repeat constructor.
Qed.
Definition prefix_part : part A R Cond.
Proof.
  refine (Part A R Cond (prefix_owns false) (prefix c) (fun _ => True)
    (fun s ds s' ds' => (forall j, link (prefix_owns false) parsed_at s ds s' j) /\ ds' = filter (kept (prefix_owns false)) ds) I _ _ _ _ _ _ _).
  - intros s _. split; [|reflexivity]. intros j. right. right. intros d _ [].
  - intros ds. split; [|reflexivity]. intros j. left. split; reflexivity.
  - intros s ds s' ds' H. apply H.
  - intros s ds s' ds' e [L ->] F. split; [|symmetry; apply apart_filter; exact F]. intros j. exact (link_apart _ _ parsed_mine s ds s' j e (L j) F).
  - intros s ds a E. destruct a as [| | |[] k v p| |]; try reflexivity. discriminate E.
  - intros s ds s' ds' a [L ->] E. destruct a as [| | |[] k v p|[] k u p|]; try discriminate E.
    2:{ cbn. split; [|rewrite filter_app; reflexivity]. intros j. apply link_append; [apply L|]. intros d [v [q ->]] [H|[]]. discriminate H. }
    cbn [hhandle prefix]. pose proof (push_like s ds s' k v p L) as PL.
    destruct (L k) as [[-> ->]|[[i [d [Hs [N [[w [q ->]] Hs']]]]]|Hs]].
    + destruct (push_prefixed c s ds k v p) as [[t e] x], (push_prefixed c s' _ k v p) as [[t' e'] x']. exact PL.
    + assert (Pd : parsed_at k (Plain (Prefixed false k w q))) by (eexists; eexists; reflexivity).
      rewrite Hs, Hs', N, (at_nth (kept (prefix_owns false)) ds i _ N eq_refl), Nat.eqb_refl. cbn [andb]. destruct (veq c v w || includes q p).
      * assert (Pe : parsed_at k (Plain (Prefixed false k v (prefixes (prefix_targets c) (union q p) k)))) by (eexists; eexists; reflexivity).
        split; [split|split; [|split; [reflexivity|constructor]]].
        -- exact (link_replace (prefix_owns false) parsed_at parsed_mine parsed_one s ds s' k i _ _ L N Pd Hs Hs' Pe).
        -- symmetry. apply (filter_replace _ ds i _ _ N); reflexivity.
        -- exact (mine_apart_replace (prefix_owns false) ds i _ (Plain (Prefixed false k v _)) N eq_refl eq_refl).
      * destruct (push_prefixed c s ds k v p) as [[t e] x], (push_prefixed c s' _ k v p) as [[t' e'] x']. exact PL.
    + assert (Q : forall (s : nat -> option nat) (l : list decl), (forall d, parsed_at k d -> ~ In d l) ->
        match s k with
        | Some i => match nth_error l i with
            | Some (Plain (Prefixed false k' cur ps)) => if Nat.eqb k' k && (veq c v cur || includes ps p)
                then Some (s, replace l i (Plain (Prefixed false k v (prefixes (prefix_targets c) (union ps p) k))), []) else Some (push_prefixed c s l k v p)
            | _ => Some (push_prefixed c s l k v p) end
        | None => Some (push_prefixed c s l k v p)
        end = Some (push_prefixed c s l k v p)).
      { intros s0 l H. destruct (s0 k) as [i|]; [|reflexivity]. destruct (nth_error l i) as [[a| | | | |]|] eqn:N; try reflexivity.
        destruct a as [| | |[] k' cur ps| |]; try reflexivity. destruct (Nat.eqb k' k) eqn:Ek; [|reflexivity]. apply Nat.eqb_eq in Ek. subst k'.
        destruct (H (Plain (Prefixed false k cur ps))); [eexists; eexists; reflexivity|exact (nth_error_In _ _ N)]. }
      rewrite (Q s ds Hs), (Q s' (filter (kept (prefix_owns false)) ds)).
      * destruct (push_prefixed c s ds k v p) as [[t e] x], (push_prefixed c s' _ k v p) as [[t' e'] x']. exact PL.
      * intros d Pd J. apply filter_In in J. exact (Hs d Pd (proj1 J)).
  - intros s ds s' ds' [L ->]. cbn. split; [split; [exact L|reflexivity]|]. split; [apply apart_refl|]. split; [reflexivity|]. split; [constructor|exact I].
Defined.
Lemma prefix_of : of prefix_part = prefix c.
Proof. reflexivity. Qed.
Lemma prefix_quiet : quiet prefix_part.
Proof.
  split; [|reflexivity]. intros s ds a. cbn [of prefix_part prefix hhandle]. destruct a as [| | |[] k v p| |]; try exact I.
  destruct (s k) as [i|]; [|reflexivity]. destruct (nth_error ds i) as [[a| | | | |]|]; try reflexivity.
  destruct a as [| | |[] k' cur ps| |]; try reflexivity. destruct (Nat.eqb k' k && _); reflexivity.
Qed.

Definition any_at (k : nat) (d : decl) : Prop := (exists v s, d = Plain (Prefixed true k v s)) \/ exists u s, d = Plain (PrefixedRaw true k u s).
Lemma any_mine k d : any_at k d -> mine (prefix_owns true) d = true.
Proof. intros [[v [s ->]]|[v [s ->]]]; reflexivity. Qed.
Lemma any_one j k d : any_at j d -> any_at k d -> j = k.
Proof. intros [[v [s ->]]|[v [s ->]]] [[v' [s' E]]|[v' [s' E]]]; try discriminate E; injection E; auto. Qed.
(** The indices of the fallback handler are never those of another block *)
Definition live (s : nat -> option nat) (ds : list decl) (s' : nat -> option nat) (k : nat) : Prop :=
  (s k = None /\ s' k = None)
  \/ (exists i d, s k = Some i /\ nth_error ds i = Some d /\ any_at k d /\ s' k = Some (at_ (kept (prefix_owns true)) ds i)).
Lemma live_link s ds s' : (forall j, live s ds s' j) -> forall j, link (prefix_owns true) any_at s ds s' j.
Proof. intros L j. destruct (L j) as [H|H]; [left; exact H|right; left; exact H]. Qed.
Lemma link_live s ds s' : (forall j, (s j = None <-> s' j = None) /\ forall i, s j = Some i -> exists d, nth_error ds i = Some d /\ any_at j d) ->
  (forall j, link (prefix_owns true) any_at s ds s' j) -> forall j, live s ds s' j.
Proof.
  intros H L j. destruct (L j) as [Q|[Q|Q]]; [left; exact Q|right; exact Q|]. destruct (H j) as [H1 H2]. destruct (s j) as [i|] eqn:E.
  - destruct (H2 i eq_refl) as [d [N Pd]]. destruct (Q d Pd). exact (nth_error_In _ _ N).
  - left. split; [exact E|apply H1; reflexivity].
Qed.
Lemma live_points s ds s' : (forall j, live s ds s' j) -> forall j, (s j = None <-> s' j = None) /\ forall i, s j = Some i -> exists d, nth_error ds i = Some d /\ any_at j d.
Proof.
  intros L j. destruct (L j) as [[-> ->]|[i [d [Hs [N [Pd Hs']]]]]].
  - split; [tauto|intros i E; discriminate E].
  - rewrite Hs, Hs'. split; [split; intros E; discriminate E|]. intros i' E. injection E as <-. eauto.
Qed.
Lemma live_apart s ds s' e : (forall j, live s ds s' j) -> apart (kept (prefix_owns true)) ds e -> forall j, live s e s' j.
Proof.
  intros L F. apply link_live; [|intros j; exact (link_apart _ _ any_mine s ds s' j e (live_link s ds s' L j) F)].
  intros j. destruct (live_points s ds s' L j) as [H1 H2]. split; [exact H1|]. intros i E. destruct (H2 i E) as [d [N Pd]]. exists d. split; [|exact Pd].
  apply (apart_nth _ ds e i d F N). apply mine_kept. exact (any_mine j d Pd).
Qed.
Lemma live_push s ds s' e d k : (forall j, live s ds s' j) -> Forall (any_at k) e -> any_at k d ->
  forall j, live (slot k (length (ds ++ e)) s) ((ds ++ e) ++ [d]) (slot k (length (filter (kept (prefix_owns true)) ds ++ e)) s') j.
Proof.
  intros L Pe Pd. apply link_live; [|exact (link_push _ _ any_mine any_one s ds s' e d k (live_link _ _ _ L) Pe Pd)].
  intros j. destruct (live_points s ds s' L j) as [H1 H2]. unfold slot. destruct (Nat.eqb k j) eqn:E; [|].
  - apply Nat.eqb_eq in E. subst j. split; [split; intros Q; discriminate Q|]. intros i Q. injection Q as <-. exists d.
    split; [rewrite nth_error_app2, Nat.sub_diag by lia; reflexivity|exact Pd].
  - split; [exact H1|]. intros i Q. destruct (H2 i Q) as [x [N Px]]. exists x. split; [|exact Px]. pose proof (nth_lt _ _ _ N). rewrite <- app_assoc, nth_error_app1 by lia. exact N.
Qed.
Lemma live_replace s ds s' k i d e : (forall j, live s ds s' j) -> nth_error ds i = Some d -> any_at k d -> s k = Some i ->
  s' k = Some (at_ (kept (prefix_owns true)) ds i) -> any_at k e -> forall j, live s (replace ds i e) s' j.
Proof.
  intros L N Pd Hs Hs' Pe. apply link_live; [|exact (link_replace _ _ any_mine any_one s ds s' k i d e (live_link _ _ _ L) N Pd Hs Hs' Pe)].
  pose proof (nth_lt _ _ _ N) as Lt. intros j. destruct (live_points s ds s' L j) as [H1 H2]. split; [exact H1|]. intros n Q. rewrite replace_nth by exact Lt.
  destruct (Nat.eqb i n) eqn:E; [|exact (H2 n Q)]. apply Nat.eqb_eq in E. subst n. destruct (H2 i Q) as [x [Nx Px]]. rewrite N in Nx. injection Nx as <-.
  rewrite (any_one j k d Px Pd). eauto.
Qed.
Definition fallback_part : part A R Cond.
Proof.
  refine (Part A R Cond (prefix_owns true) (fallback c) (fun s => s = fun _ => None)
    (fun s ds s' ds' => (forall j, live s ds s' j) /\ ds' = filter (kept (prefix_owns true)) ds) eq_refl _ _ _ _ _ _ _).
  - intros s ->. split; [|reflexivity]. intros j. left. auto.
  - intros ds. split; [|reflexivity]. intros j. left. split; reflexivity.
  - intros s ds s' ds' H. apply H.
  - intros s ds s' ds' e [L ->] F. split; [|symmetry; apply apart_filter; exact F]. exact (live_apart s ds s' e L F).
  - intros s ds a E. destruct a as [| | |[] k v p|[] k u p|]; try reflexivity; discriminate E.
  - intros s ds s' ds' a [L ->] E. destruct a as [| | |[] k v p|[] k u p|]; try discriminate E; cbn [hhandle fallback].
    + set (q := if has_prefix c k then _ else p). assert (Pv : forall v s, any_at k (Plain (Prefixed true k v s))) by (intros; left; eexists; eexists; reflexivity).
      destruct (L k) as [[Hs Hs']|[i [d [Hs [N [Pd Hs']]]]]].
      * rewrite Hs, Hs'. destruct (fallbacks c v) as [l v']. set (q' := if _ && _ && _ then _ else q). set (m := map _ l).
        assert (Pm : Forall (any_at k) m). { unfold m. apply Forall_map, Forall_forall. intros x _. apply Pv. }
        assert (Mm : Forall (fun d => mine (prefix_owns true) d = true) m) by (eapply Forall_impl; [|exact Pm]; intros x; apply any_mine).
        split; [split|split; [|split; [reflexivity|constructor]]].
        -- exact (live_push s ds s' m _ k L Pm (Pv v' q')).
        -- rewrite !filter_app. rewrite (filter_all _ m); [reflexivity|]. eapply Forall_impl; [|exact Mm]. intros x. apply mine_kept.
        -- rewrite <- app_assoc. apply mine_apart_push. apply Forall_app. split; [exact Mm|]. repeat constructor.
      * rewrite Hs, Hs'. pose proof (any_mine k d Pd) as Md. destruct (compat c v).
        -- split; [split|split; [|split; [reflexivity|constructor]]].
           ++ exact (live_replace s ds s' k i d _ L N Pd Hs Hs' (Pv v q)).
           ++ symmetry. apply (filter_replace _ ds i d _ N); [apply mine_kept; exact Md|reflexivity].
           ++ exact (mine_apart_replace _ ds i d (Plain (Prefixed true k v q)) N Md eq_refl).
        -- split; [split|split; [|split; [reflexivity|constructor]]].
           ++ pose proof (live_push s ds s' [] _ k L (Forall_nil _) (Pv v q)) as H. rewrite !app_nil_r in H. exact H.
           ++ rewrite filter_app. reflexivity.
           ++ apply mine_apart_push. repeat constructor.
    + set (q := if _ && _ then _ else p). assert (Pv : any_at k (Plain (PrefixedRaw true k u q))) by (right; eexists; eexists; reflexivity).
      destruct (L k) as [[Hs Hs']|[i [d [Hs [N [Pd Hs']]]]]]; rewrite Hs, Hs'.
      * split; [split|split; [|split; [reflexivity|constructor]]].
        -- pose proof (live_push s ds s' [] _ k L (Forall_nil _) Pv) as H. rewrite !app_nil_r in H. exact H.
        -- rewrite filter_app. reflexivity.
        -- apply mine_apart_push. repeat constructor.
      * pose proof (any_mine k d Pd) as Md. split; [split|split; [|split; [reflexivity|constructor]]].
        -- exact (live_replace s ds s' k i d _ L N Pd Hs Hs' Pv).
        -- symmetry. apply (filter_replace _ ds i d _ N); [apply mine_kept; exact Md|reflexivity].
        -- exact (mine_apart_replace _ ds i d (Plain (PrefixedRaw true k u q)) N Md eq_refl).
  - intros s ds s' ds' [L ->]. cbn. split; [split; [|reflexivity]|].
    + intros j. left. auto.
    + split; [apply apart_refl|]. split; [reflexivity|]. split; [constructor|reflexivity].
Defined.
Lemma fallback_of : of fallback_part = fallback c.
Proof. reflexivity. Qed.
Lemma fallback_quiet : quiet fallback_part.
Proof.
  split; [|reflexivity]. intros s ds a. cbn [of fallback_part fallback hhandle]. destruct a as [| | |[] k v p|[] k v p|]; try exact I.
  - destruct (s k) as [i|]; [destruct (compat c v); reflexivity|]. destruct (fallbacks c v). reflexivity.
  - destruct (s k); reflexivity.
Qed.
End Prefix.
