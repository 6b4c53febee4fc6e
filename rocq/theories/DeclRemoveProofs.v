(** * Declaration blocks: [remove] *)
From Coq Require Import List Bool String PeanoNat Lia.
From Verif Require Import VendorPrefixModel ShorthandTable DeclModel DeclSpec DeclProofs DeclSetProofs DeclGetProofs.
Import ListNotations.
Local Open Scope string_scope.
Local Open Scope list_scope.

Lemma mem_id_iff : forall i l, mem_id i l = true <-> In i l.
Proof.
  intros i l. unfold mem_id. rewrite existsb_exists. split.
  - intros (x & X & E). apply pid_eqb_iff in E. subst. exact X.
  - intros H. exists i. split; auto. apply pid_eqb_refl.
Qed.
Lemma longhands_part : forall i ls, longhands i = Some ls -> forall l, In l ls <-> part_of i l.
Proof.
  intros i ls H l. unfold longhands in H. destruct (find_sh i) as [s|] eqn:F; [|discriminate]. injection H as <-.
  apply find_names in F as [T N]. unfold sh_longhands. rewrite in_map_iff. split.
  - intros (x & E & X). right. apply in_concat in X as (g & G & X). exists s, g, x. repeat (split; auto).
  - intros [[NS _]|(t & g & x & A & B & C & D & ->)]; [destruct NS; exists s; auto|].
    rewrite (names_unique i s t T A N B). exists x. split; [|apply in_concat; eauto].
    unfold lh_id, longhand_id, sh_prefix, prefix_of. reflexivity.
Qed.
Lemma longhands_short : forall i, (exists ls, longhands i = Some ls) <-> short i.
Proof.
  intros i. unfold longhands. split.
  - intros [ls H]. destruct (find_sh i) as [s|] eqn:F; [|discriminate]. apply find_names in F. exists s. exact F.
  - intros (s & T & N). rewrite (names_find i s T N). eauto.
Qed.
Lemma dom_part : forall i l, dom i l = true <-> part_of i l.
Proof.
  intros i l. unfold dom. destruct (find_sh i) as [s|] eqn:F.
  - pose proof (find_names _ _ F) as [T N]. destruct (say_short (fun _ => Pending) i l) as [y|] eqn:E.
    + split; auto. intros _. right. apply say_short_inv in E as (t & k & g & x & A & B & C & D & -> & _).
      exists t, g, x. repeat (split; auto). eapply nth_error_In; eauto.
    + split; [discriminate|]. intros [[NS _]|(t & g & x & A & B & C & D & ->)]; [destruct NS; exists s; auto|].
      apply In_nth_error in C as [k C]. rewrite (say_short_at _ i t k g x A B C D) in E. discriminate.
  - rewrite pid_eqb_iff. apply find_none_short in F. split.
    + intros ->. left. auto.
    + intros [[_ ->]|(t & g & x & A & B & _)]; auto. destruct F. exists t. auto.
Qed.

(** ** One declaration *)
Lemma remove_kept : forall i d, ~ short i -> prop_id d <> i -> ~ part_of (prop_id d) i -> remove_one i d = [d].
Proof.
  intros i d S N P. unfold remove_one.
  assert (L : longhands i = None).
  { destruct (longhands i) as [ls|] eqn:E; auto. destruct S. apply longhands_short. eauto. }
  rewrite L. apply pid_eqb_neq in N. rewrite N. cbn [orb mem_id existsb andb].
  destruct (longhands (prop_id d)) as [ls|] eqn:E; [|reflexivity].
  destruct (mem_id i ls) eqn:M; auto. apply mem_id_iff in M. apply (longhands_part _ _ E) in M. contradiction.
Qed.
Lemma remove_same : forall i d, prop_id d = i -> remove_one i d = [].
Proof. intros i d E. unfold remove_one. rewrite E, pid_eqb_refl. reflexivity. Qed.
Lemma remove_split : forall i d, ~ short i -> prop_id d <> i -> part_of (prop_id d) i ->
    exists ls, longhands (prop_id d) = Some ls /\
      remove_one i d = filter_map (fun l => if pid_eqb l i then None else longhand d l) ls.
Proof.
  intros i d S N P. unfold remove_one.
  assert (L : longhands i = None).
  { destruct (longhands i) as [ls|] eqn:E; auto. destruct S. apply longhands_short. eauto. }
  rewrite L. apply pid_eqb_neq in N. rewrite N. change (mem_id (prop_id d) []) with false. cbn [orb].
  assert (SD : short (prop_id d)).
  { destruct P as [[_ E]|(t & g & x & A & B & _)]; [apply pid_eqb_neq in N; congruence|]. exists t. auto. }
  apply longhands_short in SD as [ls E]. exists ls. split; auto. rewrite E.
  apply (longhands_part _ _ E) in P. apply mem_id_iff in P. rewrite P. reflexivity.
Qed.

Lemma split_say : forall i d ls l, typed d -> splittable d -> (forall k, In k ls -> part_of (prop_id d) k) ->
    last_say l (filter_map (fun k => if pid_eqb k i then None else longhand d k) ls) =
    if mem_id l ls && negb (pid_eqb l i) then say d l else None.
Proof.
  intros i d ls l T [(j & vs & ->) R] P. induction ls as [|k ls IH]; [reflexivity|].
  assert (IH' := IH (fun x X => P x (or_intror X))). clear IH.
  specialize (P k (or_introl eq_refl)). cbn [prop_id] in P.
  assert (SK : exists v, say (PShort j vs) k = Some (Value v)).
  { destruct P as [[NS _]|(s & g & x & A & B & C & D & ->)]; [destruct T as [_ (s & A & B & _)]; destruct NS; exists s; auto|].
    apply In_nth_error in C as [n C]. cbn [say]. rewrite (say_short_at _ j s n g x A B C D). eauto. }
  destruct SK as [v SK].
  assert (KR : regular k) by (apply (R k (Value v)); apply says_say; auto).
  pose proof (longhand_say j vs k KR) as L. rewrite SK in L.
  assert (MC : mem_id l (k :: ls) = pid_eqb l k || mem_id l ls) by reflexivity. rewrite MC.
  cbn [filter_map]. destruct (pid_eqb k i) eqn:KI.
  - rewrite IH'. apply pid_eqb_iff in KI. subst k. destruct (pid_eqb l i) eqn:LI; [rewrite !andb_false_r; reflexivity|reflexivity].
  - rewrite L. cbn [last_say]. rewrite IH'.
    assert (SL : say (PLong k v) l = if pid_eqb k l then Some (Value v) else None).
    { cbn [say]. assert (A : pid_eqb k PAll = false).
      { apply pid_eqb_neq. destruct P as [[NS _]|(s & g & x & A & B & C & D & ->)]; [destruct T as [_ (s & A & B & _)]; destruct NS; exists s; auto|].
        apply longhand_id_not_all. }
      rewrite A. reflexivity. }
    rewrite SL. destruct (pid_eqb l k) eqn:LK.
    + apply pid_eqb_iff in LK. subst l. rewrite KI, pid_eqb_refl, SK. cbn [orb negb andb].
      destruct (mem_id k ls); reflexivity.
    + assert (KL : pid_eqb k l = false) by (apply pid_eqb_neq; apply pid_eqb_neq in LK; congruence). rewrite KL. cbn [orb].
      destruct (mem_id l ls && negb (pid_eqb l i)); [destruct (say (PShort j vs) l); reflexivity|reflexivity].
Qed.
Lemma split_typed : forall i d ls, typed d -> (forall k, In k ls -> part_of (prop_id d) k) ->
    all_typed (filter_map (fun k => if pid_eqb k i then None else longhand d k) ls).
Proof.
  intros i d ls T P. induction ls as [|k ls IH]; [intros e []|].
  assert (IH' := IH (fun x X => P x (or_intror X))). specialize (P k (or_introl eq_refl)). cbn [filter_map].
  destruct (pid_eqb k i); auto. destruct (longhand d k) as [e|] eqn:L; auto. apply all_typed_cons. split; auto.
  destruct d as [j v|j vs|j v]; try discriminate. cbn in L. destruct (find_sh j) as [s|] eqn:F; [|discriminate].
  pose proof (find_names _ _ F) as [TI N].
  destruct (sh_vp s && _); [discriminate|]. unfold sh_longhand in L. destruct (key_of k (sh_keys s) 0) as [[n m]|]; [|discriminate].
  injection L as <-. cbn [prop_id] in P. destruct P as [[NS _]|(t & g & x & A & B & C & D & ->)]; [destruct NS; exists s; auto|].
  destruct T as [ONE _]. split.
  - cbn [prop_id] in *. unfold longhand_id. destruct (lh_vp x); cbn; auto. destruct j as [n' p|n'| |n']; cbn in *; auto; exists Unprefixed; reflexivity.
  - intros (u & U & UN). destruct (table_ok_at t A) as (_ & NAMES & _). apply (NAMES x u); auto.
    + apply in_concat. eauto.
    + rewrite (names_name _ _ UN), longhand_id_name. reflexivity.
Qed.

Lemma last_say_flat : forall l f ds, (forall d, In d ds -> last_say l (f d) = say d l) -> last_say l (flat_map f ds) = last_say l ds.
Proof.
  induction ds as [|d r IH]; intros H; auto. cbn [flat_map last_say]. rewrite last_say_app, IH by (intros e E; apply H; right; exact E).
  rewrite (H d (or_introl eq_refl)). reflexivity.
Qed.

(** ** Removing a longhand *)
Section Long.
Variable i : pid.
Hypotheses (S : ~ short i) (NA : i <> PAll).

Lemma remove_one_typed : forall d, typed d -> all_typed (remove_one i d).
Proof.
  intros d T. destruct (pid_dec (prop_id d) i) as [E|E]; [rewrite remove_same by exact E; intros e []|].
  destruct (dom (prop_id d) i) eqn:D.
  - apply dom_part in D. destruct (remove_split i d S E D) as (ls & L & ->). apply split_typed; auto.
    intros k K. apply (longhands_part _ _ L). exact K.
  - rewrite remove_kept; auto; [|intros P; apply dom_part in P; congruence]. intros e [<- |[]]. exact T.
Qed.
Lemma remove_one_gone : forall d x, typed d -> last_say i (remove_one i d) = Some x -> exists v, x = Reset v.
Proof.
  intros d x T H. destruct (pid_dec (prop_id d) i) as [E|E]; [rewrite remove_same in H by exact E; discriminate|].
  destruct (dom (prop_id d) i) eqn:D.
  - exfalso. apply dom_part in D. destruct (remove_split i d S E D) as (ls & L & EQ). rewrite EQ in H.
    assert (N : forall ks, last_say i (filter_map (fun l => if pid_eqb l i then None else longhand d l) ks) = None).
    { clear -NA. induction ks as [|k ks IH]; auto. cbn [filter_map]. destruct (pid_eqb k i) eqn:K; auto.
      destruct (longhand d k) as [e|] eqn:Q; auto. cbn [last_say]. rewrite IH.
      destruct d as [j v|j vs|j v]; try discriminate. cbn in Q. destruct (find_sh j) as [s|]; [|discriminate].
      destruct (sh_vp s && _); [discriminate|]. unfold sh_longhand in Q. destruct (key_of k (sh_keys s) 0) as [[n m]|] eqn:KO; [|discriminate].
      injection Q as <-. cbn [say]. rewrite K.
      assert (A : pid_eqb k PAll = false).
      { apply pid_eqb_neq. intros ->. destruct (key_of_some _ _ _ _ _ KO) as (g & y & _ & _ & _ & I & _). discriminate. }
      rewrite A. reflexivity. }
    rewrite N in H. discriminate.
  - rewrite remove_kept in H; auto; [|intros P; apply dom_part in P; congruence]. cbn [last_say] in H.
    destruct (pid_dec (prop_id d) PAll) as [A|A].
    + destruct d as [j v|j vs|j v]; cbn [prop_id] in *; subst j; cbn [say] in H.
      * destruct (pid_eqb PAll i) eqn:P; [apply pid_eqb_iff in P; congruence|]. destruct (pid_eqb PAll PAll && reset_by_allb i); [|discriminate].
        injection H as <-. eauto.
      * unfold say_short in H. discriminate.
      * destruct (pid_eqb PAll i) eqn:P; [apply pid_eqb_iff in P; congruence|]. cbn in H. discriminate.
    + apply (say_dom d i T A) in D. congruence.
Qed.
Lemma remove_one_other : forall d l, typed d -> l <> i -> (part_of (prop_id d) i -> prop_id d <> i -> splittable d) ->
    last_say l (remove_one i d) = say d l.
Proof.
  intros d l T L SP. destruct (pid_dec (prop_id d) i) as [E|E].
  - rewrite remove_same by exact E. cbn [last_say]. symmetry. apply say_dom; auto; [congruence|]. rewrite E. unfold dom.
    rewrite (proj2 (find_none_short i) S). apply pid_eqb_neq. congruence.
  - destruct (dom (prop_id d) i) eqn:D.
    + pose proof D as D'. apply dom_part in D'. destruct (remove_split i d S E D') as (ls & LS & ->).
      pose proof (SP D' E) as SPL.
      rewrite split_say; auto; [|intros k K; apply (longhands_part _ _ LS); exact K].
      apply pid_eqb_neq in L. rewrite L. cbn [negb]. rewrite andb_true_r. destruct (mem_id l ls) eqn:M; auto.
      symmetry. apply say_dom; auto.
      * destruct SPL as [(j & vs & ->) _]. cbn. intros ->. destruct T as [_ (s & _ & [] & _)].
      * destruct (dom (prop_id d) l) eqn:DL; auto. apply dom_part in DL. apply (longhands_part _ _ LS) in DL.
        apply mem_id_iff in DL. congruence.
    + rewrite remove_kept; auto. intros P; apply dom_part in P; congruence.
Qed.
Lemma flat_typed : forall ds, all_typed ds -> all_typed (flat_map (remove_one i) ds).
Proof.
  intros ds T e E. apply in_flat_map in E as (d & D & E). exact (remove_one_typed d (T d D) e E).
Qed.
Lemma flat_gone : forall ds x, all_typed ds -> last_say i (flat_map (remove_one i) ds) = Some x -> exists v, x = Reset v.
Proof.
  induction ds as [|d r IH]; intros x T H; [discriminate|]. apply all_typed_cons in T as [Td T]. cbn [flat_map] in H. rewrite last_say_app in H.
  destruct (last_say i (flat_map (remove_one i) r)) as [y|] eqn:E.
  - injection H as ->. apply (IH x T eq_refl).
  - apply (remove_one_gone d x Td H).
Qed.

Variable b : block.
Hypothesis T : typed_block b.
Lemma remove_typed : typed_block (remove b i).
Proof. apply typed_split in T as [T1 T2]. apply typed_join; apply flat_typed; auto. Qed.
Lemma remove_gone : forall x imp, cascaded (remove b i) i x imp -> exists v, x = Reset v.
Proof.
  intros x imp C. apply (cascaded_iff _ _ _ _ remove_typed) in C. pose proof (typed_split b T) as [T1 T2].
  unfold cascade, remove in C. cbn [b_important b_normal] in C.
  destruct (last_say i (flat_map (remove_one i) (b_important b))) as [y|] eqn:E.
  - injection C as -> _. exact (flat_gone _ x T1 E).
  - destruct (last_say i (flat_map (remove_one i) (b_normal b))) as [z|] eqn:F; [|discriminate]. injection C as -> _. exact (flat_gone _ x T2 F).
Qed.
Lemma remove_others : (forall d, in_block b d -> part_of (prop_id d) i -> prop_id d <> i -> splittable d) ->
    forall l x imp, l <> i -> cascaded (remove b i) l x imp <-> cascaded b l x imp.
Proof.
  intros SP l x imp L. rewrite !cascaded_iff; auto using remove_typed. pose proof (typed_split b T) as [T1 T2].
  unfold cascade, remove. cbn [b_important b_normal].
  rewrite !last_say_flat; [tauto| |]; intros d D; apply remove_one_other; auto; intros P E; apply (SP d); auto; [right|left]; exact D.
Qed.
Lemma remove_get : forall valid, regular i -> get valid (remove b i) i = None.
Proof.
  intros valid R. rewrite (get_longhand_eq valid _ i remove_typed S R). pose proof (typed_split b T) as [T1 T2].
  assert (N : forall ds, all_typed ds -> last_answer i (flat_map (remove_one i) ds) = None).
  { intros ds TD.
    assert (G : forall e y, In e (flat_map (remove_one i) ds) -> say e i = Some y -> exists v, y = Reset v).
    { intros e y I Y. apply in_flat_map in I as (d & D & I).
      destruct (last_say i (remove_one i d)) as [z|] eqn:Z.
      - destruct (pid_dec (prop_id d) i) as [E|E]; [rewrite remove_same in I by exact E; destruct I|].
        destruct (dom (prop_id d) i) eqn:DD.
        + exfalso. destruct (remove_one_gone d z (TD d D) Z) as [v ->]. apply dom_part in DD.
          destruct (remove_split i d S E DD) as (ls & _ & EQ). rewrite EQ in I. clear -I Y NA.
          induction ls as [|k ls IH]; [destruct I|]. cbn [filter_map] in I. destruct (pid_eqb k i) eqn:K; auto.
          destruct (longhand d k) as [e'|] eqn:Q; auto. destruct I as [<- |I]; auto.
          destruct d as [j v|j vs|j v]; try discriminate. cbn in Q. destruct (find_sh j) as [s|]; [|discriminate].
          destruct (sh_vp s && _); [discriminate|]. unfold sh_longhand in Q. destruct (key_of k (sh_keys s) 0) as [[n m]|] eqn:KO; [|discriminate].
          injection Q as <-. cbn [say] in Y. rewrite K in Y.
          assert (A : pid_eqb k PAll = false).
          { apply pid_eqb_neq. intros ->. destruct (key_of_some _ _ _ _ _ KO) as (g & y' & _ & _ & _ & I' & _). discriminate. }
          rewrite A in Y. discriminate.
        + rewrite remove_kept in I, Z; auto; try (intros P; apply dom_part in P; congruence). destruct I as [<- |[]].
          cbn in Z. rewrite Y in Z. injection Z as ->. apply (remove_one_gone d z (TD d D)).
          rewrite remove_kept; auto. intros P; apply dom_part in P; congruence.
      - exfalso. revert Z. apply in_split in I as (a & c & ->). rewrite last_say_app. cbn [last_say].
        destruct (last_say i c); [discriminate|]. rewrite Y. discriminate. }
    revert G. generalize (flat_map (remove_one i) ds) as es. induction es as [|e es IH]; intros G; auto. cbn [last_answer].
    rewrite IH by (intros e' y I; apply G; right; exact I). destruct (say e i) as [y|] eqn:Y; auto.
    destruct (G e y (or_introl eq_refl) Y) as [v ->]. reflexivity. }
  unfold remove. cbn [b_important b_normal]. rewrite (N _ T1), (N _ T2). reflexivity.
Qed.
End Long.

(** ** Removing a shorthand *)
Section Short.
Variable i : pid.
Hypothesis S : short i.

Lemma remove_short_cases : forall d, (remove_one i d = [] /\ (prop_id d = i \/ part_of i (prop_id d))) \/
    (remove_one i d = [d] /\ prop_id d <> i /\ ~ part_of i (prop_id d)).
Proof.
  intros d. unfold remove_one. apply longhands_short in S as [ls L]. rewrite L.
  assert (NE : ls <> []).
  { unfold longhands in L. destruct (find_sh i) as [s|] eqn:F; [|discriminate]. injection L as <-. apply find_names in F as [T N].
    destruct (table_ok_at s T) as (_ & _ & NE & NK & _). destruct (concat_head _ NE NK) as [x X]. unfold sh_longhands.
    destruct (List.concat (sh_keys s)); discriminate. }
  destruct (pid_eqb (prop_id d) i) eqn:E; cbn [orb].
  - left. split; auto. left. apply pid_eqb_iff. exact E.
  - destruct (mem_id (prop_id d) ls) eqn:M.
    + left. split; auto. right. apply (longhands_part _ _ L). apply mem_id_iff. exact M.
    + right. destruct ls as [|y ls]; [congruence|]. cbn [andb]. split; auto. split; [apply pid_eqb_neq; exact E|].
      intros P. apply (longhands_part _ _ L) in P. apply mem_id_iff in P. congruence.
Qed.
Lemma part_not_short : forall l, part_of i l -> ~ short l /\ l <> PAll.
Proof.
  intros l [[NS _]|(s & g & x & A & B & C & D & ->)]; [contradiction|]. split; [|apply longhand_id_not_all].
  intros (u & U & UN). destruct (table_ok_at s A) as (_ & NAMES & _). apply (NAMES x u); auto.
  - apply in_concat. eauto.
  - rewrite (names_name _ _ UN), longhand_id_name. reflexivity.
Qed.
Lemma remove_short_other : forall d l, typed d -> ~ part_of i l -> last_say l (remove_one i d) = say d l.
Proof.
  intros d l T P. destruct (remove_short_cases d) as [[-> E]|[-> _]]; cbn [last_say]; auto. symmetry.
  assert (NA : prop_id d <> PAll).
  { destruct E as [E|E]; [rewrite E; intros ->; destruct S as (s & _ & []) |apply (part_not_short _ E)]. }
  apply say_dom; auto. destruct (dom (prop_id d) l) eqn:D; auto. apply dom_part in D. destruct P.
  destruct E as [E|E]; [rewrite E in D; exact D|]. destruct (part_not_short _ E) as [NS _].
  destruct D as [[_ ->]|(s & g & x & A & B & _)]; [exact E|]. destruct NS. exists s. auto.
Qed.
Variable b : block.
Hypothesis T : typed_block b.
Lemma remove_short_typed : typed_block (remove b i).
Proof.
  apply typed_split in T as [T1 T2].
  assert (A : forall ds, all_typed ds -> all_typed (flat_map (remove_one i) ds)).
  { intros ds TD e E. apply in_flat_map in E as (d & D & E). destruct (remove_short_cases d) as [[Q _]|[Q _]]; rewrite Q in E; [destruct E|]. destruct E as [<- |[]]. auto. }
  apply typed_join; apply A; auto.
Qed.
Lemma remove_short_others : forall l x imp, ~ part_of i l -> cascaded (remove b i) l x imp <-> cascaded b l x imp.
Proof.
  intros l x imp P. rewrite !cascaded_iff; auto using remove_short_typed. pose proof (typed_split b T) as [T1 T2].
  unfold cascade, remove. cbn [b_important b_normal].
  rewrite !last_say_flat; [tauto| |]; intros d D; apply remove_short_other; auto.
Qed.
(** No other shorthand sets these longhands. *)
Hypothesis ONLY : forall d l x, in_block b d -> part_of i l -> says d l x -> prop_id d = i \/ prop_id d = l \/ prop_id d = PAll.
Lemma remove_short_left : forall d l x, in_block (remove b i) d -> part_of i l -> says d l x -> exists v, x = Reset v.
Proof.
  intros d l x I P X.
  assert (J : in_block b d /\ prop_id d <> i /\ ~ part_of i (prop_id d)).
  { destruct I as [I|I]; cbn in I; apply in_flat_map in I as (e & E & I);
      destruct (remove_short_cases e) as [[Q _]|[Q [A B]]]; rewrite Q in I; try (destruct I; fail); destruct I as [<- |[]]; (split; [|auto]); [left|right]; exact E. }
  destruct J as (J & N1 & N2). destruct (ONLY d l x J P X) as [E|[E|E]]; [contradiction|subst l; contradiction|].
  destruct (part_not_short l P) as [NS NL].
  destruct X as [j v|v l R|j vs s k g y v A B|j v NS'|j v s g y A B]; cbn [prop_id] in E; subst; try (destruct B; fail); try congruence. eauto.
Qed.
Lemma remove_short_gone : forall l x imp, part_of i l -> cascaded (remove b i) l x imp -> exists v, x = Reset v.
Proof.
  intros l x imp P C. destruct imp; cbn in C.
  - destruct C as (a & d & c & E & X & _). apply (remove_short_left d l x); auto. left. cbn. rewrite E. apply in_or_app. right. left. reflexivity.
  - destruct C as (_ & a & d & c & E & X & _). apply (remove_short_left d l x); auto. right. cbn. rewrite E. apply in_or_app. right. left. reflexivity.
Qed.
Lemma remove_short_get : forall valid, (forall l, part_of i l -> regular l) -> get valid (remove b i) i = None.
Proof.
  intros valid R. pose proof S as (s & IN & NM). unfold get. rewrite (names_find i s IN NM). change (sh_prefix i) with (prefix_of i).
  destruct (from_longhands valid s (remove b i) (prefix_of i)) as [[r imp]|] eqn:F; auto. exfalso.
  unfold from_longhands in F. set (ls := List.concat (sh_keys s)) in *.
  destruct (fl_loop s (prefix_of i) (block_iter (remove b i)) (Fl (map (fun _ => None) ls) 0 0 None)) as [st|] eqn:LP; [|discriminate].
  pose proof (typed_split _ remove_short_typed) as [T1 T2].
  assert (PART : forall x, In x ls -> part_of i (longhand_id x (prefix_of i))).
  { intros x X. right. apply in_concat in X as (g & G & X). exists s, g, x. auto. }
  assert (TI : forall d m, In (d, m) (block_iter (remove b i)) -> typed d /\ in_block (remove b i) d).
  { intros d m I. unfold block_iter in I. apply in_app_or in I as [I|I]; apply in_map_iff in I as (e & E & I); injection E as <- <-; split; auto; [right|left]; exact I. }
  destruct (loop_effect s i IN NM (fun x X => R _ (PART x X)) _ _ _ (fun d m I => proj1 (TI d m I)) (start_length s) LP) as (L & V & _).
  destruct (table_ok_at s IN) as (_ & _ & NE & NK & _). destruct (concat_head _ NE NK) as [x X].
  pose proof (V 0 x X) as V0.
  assert (LN : last_valued (longhand_id x (prefix_of i)) (block_iter (remove b i)) = None).
  { assert (G : forall ds, (forall d m, In (d, m) ds -> valued d (longhand_id x (prefix_of i)) = None) -> last_valued (longhand_id x (prefix_of i)) ds = None).
    { induction ds as [|[d m] ds IH]; intros H; auto. cbn [last_valued fst]. rewrite IH by (intros e k I; apply (H e k); right; exact I).
      apply (H d m). left. reflexivity. }
    apply G. intros d m I. unfold valued. destruct (say d (longhand_id x (prefix_of i))) as [y|] eqn:Y; auto.
    destruct (TI d m I) as [Td Id]. apply (says_say d _ y Td) in Y.
    destruct (remove_short_left d _ y Id (PART x (nth_error_In _ _ X)) Y) as [v ->]. reflexivity. }
  rewrite LN in V0. unfold start in V0. cbn [f_vals] in V0. rewrite nth_error_map, X in V0. cbn [option_map] in V0.
  destruct (_ && _) in F; [discriminate|]. destruct (all_some (f_vals st)) as [vs|] eqn:A; [|discriminate].
  apply all_some_map in A. rewrite A in V0. rewrite nth_error_map in V0. destruct (nth_error vs 0); discriminate.
Qed.
End Short.

(** ** The statements of DeclProps.v *)
Lemma get_longhand_all : forall valid b l, typed_block b -> ~ short l -> regular l ->
    (forall v imp, cascaded b l (Value v) imp -> get valid b l = Some (PLong l v, imp)) /\
    (forall v imp, cascaded b l (Raw v) imp -> get valid b l = Some (PUnparsed l v, imp)) /\
    ((forall x imp, ~ cascaded b l x imp) -> get valid b l = None).
Proof.
  intros valid b l T S R. split; [|split].
  - intros v imp C. exact (get_longhand_ok valid b l _ imp _ T S R C eq_refl).
  - intros v imp C. exact (get_longhand_ok valid b l _ imp _ T S R C eq_refl).
  - exact (get_longhand_none valid b l T S R).
Qed.
Lemma get_shorthand_sound : forall valid b i r imp, typed_block b -> short i ->
    (forall l, part_of i l -> regular l /\ forall x j, cascaded b l x j -> exists v, x = Value v) ->
    get valid b i = Some (PShort i r, imp) ->
    forall l, part_of i l -> exists v, says (PShort i r) l (Value v) /\ cascaded b l (Value v) imp.
Proof.
  intros valid b i r imp T (s & IN & NM) H G l P.
  assert (PART : forall x, In x (List.concat (sh_keys s)) -> part_of i (longhand_id x (prefix_of i))).
  { intros x X. right. apply in_concat in X as (g & GG & X). exists s, g, x. auto. }
  destruct (get_sound s i IN NM (fun x X => proj1 (H _ (PART x X))) valid b r imp T G) as (L & C & _).
  { intros x j y X Y. exact (proj2 (H _ (PART x X)) y j Y). }
  destruct P as [[NS _]|(t & g & x & A & B & D & E & ->)]; [destruct NS; exists s; auto|].
  rewrite (names_unique i t s A IN B NM) in D.
  assert (X : In x (List.concat (sh_keys s))) by (apply in_concat; eauto).
  apply In_nth_error in X as [j X]. destruct (spread_valued s i IN NM r j x L X) as (v & Q & _).
  exists v. pose proof (says_own s i IN NM r j x v L X Q) as SY. split; [exact SY|]. exact (C _ _ SY).
Qed.
Lemma get_shorthand_complete : forall valid b i vs imp, typed_block b -> plain i -> typed (PShort i vs) -> regular_prop (PShort i vs) ->
    prefixes_agree b (PShort i vs) -> valid (pid_name i) vs = true -> ~ mixed b (PShort i vs) imp ->
    (forall l y, says (PShort i vs) l y -> cascaded b l y imp) -> get valid b i = Some (PShort i vs, imp).
Proof.
  intros valid b i vs imp T (s & IN & NM & K) TP R PA V M C. pose proof (typed_short _ _ _ TP IN NM) as LV.
  apply (get_complete s i IN NM); auto.
  - intros x X. apply In_nth_error in X as [j X]. destruct (spread_valued s i IN NM vs j x LV X) as (v & E & _).
    apply (R _ (Value v)). exact (says_own s i IN NM vs j x v LV X E).
  - rewrite (names_name i s NM). exact V.
Qed.
Lemma remove_longhand : forall valid b i, typed_block b -> ~ short i -> i <> PAll ->
    (forall x imp, cascaded (remove b i) i x imp -> exists v, x = Reset v) /\
    (regular i -> get valid (remove b i) i = None) /\
    ((forall d, in_block b d -> part_of (prop_id d) i -> prop_id d <> i -> splittable d) ->
     forall l x imp, l <> i -> cascaded (remove b i) l x imp <-> cascaded b l x imp).
Proof.
  intros valid b i T S NA. split; [|split].
  - exact (remove_gone i S NA b T).
  - exact (remove_get i S NA b T valid).
  - exact (remove_others i S NA b T).
Qed.
Lemma remove_shorthand : forall valid b i, typed_block b -> short i ->
    (forall l x imp, ~ part_of i l -> cascaded (remove b i) l x imp <-> cascaded b l x imp) /\
    ((forall d l x, in_block b d -> part_of i l -> says d l x -> prop_id d = i \/ prop_id d = l \/ prop_id d = PAll) ->
     (forall l x imp, part_of i l -> cascaded (remove b i) l x imp -> exists v, x = Reset v) /\
     ((forall l, part_of i l -> regular l) -> get valid (remove b i) i = None)).
Proof.
  intros valid b i T S. split; [exact (remove_short_others i S b T)|]. intros O. split.
  - exact (remove_short_gone i S b O).
  - exact (remove_short_get i S b T O valid).
Qed.
