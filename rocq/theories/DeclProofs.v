(** * Declaration blocks: what the functions of the tables mean *)
From Coq Require Import List Bool String PeanoNat Lia.
From Verif Require Import VendorPrefixModel ShorthandTable DeclModel DeclSpec.
Import ListNotations.
Local Open Scope string_scope.
Local Open Scope list_scope.

Lemma vs_eqb_iff : forall a b, vs_eqb a b = true <-> a = b.
Proof.
  intros [a1 a2 a3 a4 a5] [b1 b2 b3 b4 b5]; unfold vs_eqb; cbn [v_webkit v_moz v_ms v_o v_none].
  rewrite !andb_true_iff, !eqb_true_iff. split.
  - intros [[[[-> ->] ->] ->] ->]; reflexivity.
  - intros H; injection H as -> -> -> -> ->; tauto.
Qed.
Lemma vs_eqb_refl : forall a, vs_eqb a a = true. Proof. intros a. apply vs_eqb_iff. reflexivity. Qed.
Lemma pid_eqb_iff : forall a b, pid_eqb a b = true <-> a = b.
Proof.
  intros [n p|n| |n] [m q|m| |m]; cbn [pid_eqb]; try (split; [discriminate|intros H; discriminate H]).
  - rewrite andb_true_iff, String.eqb_eq, vs_eqb_iff. split; [intros [-> ->]; reflexivity|intros H; injection H; auto].
  - rewrite String.eqb_eq. split; [intros ->; reflexivity|intros H; injection H; auto].
  - tauto.
  - rewrite String.eqb_eq. split; [intros ->; reflexivity|intros H; injection H; auto].
Qed.
Lemma pid_eqb_refl : forall a, pid_eqb a a = true. Proof. intros a. apply pid_eqb_iff. reflexivity. Qed.
Lemma pid_eqb_neq : forall a b, pid_eqb a b = false <-> a <> b.
Proof.
  intros a b. destruct (pid_eqb a b) eqn:E.
  - apply pid_eqb_iff in E. split; [discriminate|intros H; destruct (H E)].
  - split; auto. intros _ H. apply pid_eqb_iff in H. congruence.
Qed.
Lemma pid_dec : forall a b : pid, a = b \/ a <> b.
Proof. intros a b. destruct (pid_eqb a b) eqn:E; [left; apply pid_eqb_iff|right; apply pid_eqb_neq]; exact E. Qed.

(** ** Facts about the table *)
Fixpoint distinct (l : list (bool * string)) : bool :=
  match l with
  | [] => true
  | x :: r => negb (existsb (fun y => Bool.eqb (fst x) (fst y) && String.eqb (snd x) (snd y)) r) && distinct r
  end.
Lemma distinct_nodup : forall l, distinct l = true -> NoDup l.
Proof.
  induction l as [|x r IH]; cbn [distinct]; intros H; constructor; apply andb_true_iff in H as [H1 H2]; auto.
  intros I. apply negb_true_iff in H1. assert (existsb (fun y => Bool.eqb (fst x) (fst y) && String.eqb (snd x) (snd y)) r = true).
  { apply existsb_exists. exists x. split; auto. rewrite eqb_reflx, String.eqb_refl. reflexivity. }
  congruence.
Qed.
Definition key (s : sh) : bool * string := (sh_vp s, sh_name s).
Lemma table_nodup : NoDup (map key shorthand_table).
Proof. apply distinct_nodup. vm_compute. reflexivity. Qed.

Lemma nodup_in : forall (l : list sh) a b, NoDup (map key l) -> In a l -> In b l -> key a = key b -> a = b.
Proof.
  induction l as [|x r IH]; cbn; intros a b N A B K; [destruct A|]. inversion N; subst.
  destruct A as [-> |A], B as [-> |B]; auto.
  - destruct H1. rewrite K. apply in_map. exact B.
  - destruct H1. rewrite <- K. apply in_map. exact A.
Qed.
Lemma names_key : forall i s, names i s -> key s = (match i with PVp _ _ => true | _ => false end, pid_name i).
Proof. intros [n p|n| |n] s H; cbn in *; try destruct H as [H1 H2]; try tauto; unfold key; congruence. Qed.
Lemma names_unique : forall i s t, In s shorthand_table -> In t shorthand_table -> names i s -> names i t -> s = t.
Proof.
  intros i s t A B S T. apply (nodup_in shorthand_table); auto; [exact table_nodup|].
  rewrite (names_key _ _ S), (names_key _ _ T). reflexivity.
Qed.

Lemma find_names : forall i s, find_sh i = Some s -> In s shorthand_table /\ names i s.
Proof.
  intros i s H. unfold find_sh in H. destruct i as [n p|n| |n]; try discriminate;
    apply find_some in H as [A B]; apply andb_true_iff in B as [B C]; apply String.eqb_eq in B;
    try (apply negb_true_iff in C); cbn; auto.
Qed.
Lemma names_find : forall i s, In s shorthand_table -> names i s -> find_sh i = Some s.
Proof.
  intros i s A N. destruct (find_sh i) as [t|] eqn:E.
  - apply find_names in E as [B M]. f_equal. eapply names_unique; eauto.
  - exfalso. unfold find_sh in E. destruct i as [n p|n| |n]; cbn in N; try tauto; destruct N as [V M];
      pose proof (find_none _ _ E s A) as F; cbn beta in F; rewrite M, V, String.eqb_refl in F; discriminate.
Qed.
Lemma find_none_short : forall i, find_sh i = None <-> ~ short i.
Proof.
  intros i. split.
  - intros H (s & A & N). rewrite (names_find i s A N) in H. discriminate.
  - intros H. destruct (find_sh i) as [s|] eqn:E; auto. destruct H. apply find_names in E. exists s. exact E.
Qed.
Lemma short_dec : forall i, short i \/ ~ short i.
Proof.
  intros i. destruct (find_sh i) as [s|] eqn:E.
  - left. apply find_names in E. exists s. exact E.
  - right. apply find_none_short. exact E.
Qed.

(** Longhand names occur once per shorthand, are not names of shorthands, and every field has one. *)
Definition lh_names (s : sh) : list (bool * string) := map (fun l => (true, lh_name l)) (List.concat (sh_keys s)).
Definition table_ok : bool :=
  forallb (fun s =>
    distinct (lh_names s)
    && forallb (fun l => negb (existsb (fun t => String.eqb (sh_name t) (lh_name l)) shorthand_table)) (List.concat (sh_keys s))
    && forallb (fun g : list lh => match g with [] => false | _ => true end) (sh_keys s)
    && match sh_keys s with [] => false | _ => true end
    && match sh_kind s with
       | KPlain => true
       | _ => forallb (fun g : list lh => match g with [_] => true | _ => false end) (sh_keys s)
       end) shorthand_table.
Lemma table_is_ok : table_ok = true. Proof. vm_compute. reflexivity. Qed.
Lemma table_ok_at : forall s, In s shorthand_table ->
    NoDup (map lh_name (List.concat (sh_keys s))) /\
    (forall l t, In l (List.concat (sh_keys s)) -> In t shorthand_table -> sh_name t <> lh_name l) /\
    (forall g, In g (sh_keys s) -> g <> []) /\ sh_keys s <> [] /\
    (sh_kind s <> KPlain -> forall g, In g (sh_keys s) -> exists l, g = [l]).
Proof.
  intros s A. pose proof table_is_ok as T. unfold table_ok in T. rewrite forallb_forall in T. specialize (T s A).
  apply andb_true_iff in T as [T T5]. apply andb_true_iff in T as [T T4]. apply andb_true_iff in T as [T T3].
  apply andb_true_iff in T as [T1 T2].
  split; [|split; [|split; [|split]]].
  - apply distinct_nodup in T1. unfold lh_names in T1.
    rewrite <- (map_map lh_name (fun n => (true, n))) in T1. apply NoDup_map_inv in T1. exact T1.
  - intros l t L B E. rewrite forallb_forall in T2. specialize (T2 l L). apply negb_true_iff in T2.
    rewrite <- not_true_iff_false in T2. apply T2. apply existsb_exists. exists t. split; auto. apply String.eqb_eq. exact E.
  - intros g G E. rewrite forallb_forall in T3. specialize (T3 g G). rewrite E in T3. discriminate.
  - intros E. rewrite E in T4. discriminate.
  - intros K g G. destruct (sh_kind s); [congruence| |]; rewrite forallb_forall in T5; specialize (T5 g G);
      destruct g as [|l [|]]; try discriminate; exists l; reflexivity.
Qed.

Lemma lh_is_iff : forall l i, lh_is l i = true <-> lh_name l = pid_name i /\ match i with PVp _ _ => lh_vp l = true | PPlain _ => lh_vp l = false | _ => False end.
Proof.
  intros l [n p|n| |n]; cbn [lh_is pid_name]; rewrite ?andb_true_iff, ?negb_true_iff, ?String.eqb_eq; try tauto; split; try discriminate; tauto.
Qed.
Lemma lh_is_id : forall l i, lh_is l i = true -> longhand_id l (match i with PVp _ p => p | _ => vs_empty end) = i.
Proof.
  intros l i H. apply lh_is_iff in H as [N V]. unfold longhand_id. destruct i as [n p|n| |n]; try tauto; rewrite V; cbn in N; congruence.
Qed.
Lemma lh_is_own : forall l p, lh_is l (longhand_id l p) = true.
Proof.
  intros l p. apply lh_is_iff. unfold longhand_id. destruct (lh_vp l) eqn:V; cbn; auto.
Qed.

(** [key_of] finds the field. *)
Lemma key_of_some : forall i keys k0 k n, key_of i keys k0 = Some (k, n) ->
    exists g l, k0 <= k /\ nth_error keys (k - k0) = Some g /\ In l g /\ lh_is l i = true /\ n = List.length g.
Proof.
  induction keys as [|g r IH]; cbn [key_of]; intros k0 k n H; [discriminate|].
  destruct (existsb (fun l => lh_is l i) g) eqn:E.
  - injection H as <- <-. apply existsb_exists in E as (l & L & I). exists g, l. rewrite Nat.sub_diag. auto.
  - apply IH in H as (g' & l & LE & N & L & I & EQ). exists g', l. split; [lia|].
    replace (k - k0) with (S (k - S k0)) by lia. auto.
Qed.
Lemma key_of_none : forall i keys k0, key_of i keys k0 = None -> forall g l, In g keys -> In l g -> lh_is l i = false.
Proof.
  induction keys as [|g r IH]; cbn [key_of]; intros k0 H g' l G L; [destruct G|].
  destruct (existsb (fun l => lh_is l i) g) eqn:E; [discriminate|]. destruct G as [-> |G]; [|eapply IH; eauto].
  destruct (lh_is l i) eqn:I; auto. rewrite <- E. symmetry. apply existsb_exists. exists l. auto.
Qed.
Lemma nodup_concat_index : forall (keys : list (list lh)) k k' g g' l l',
    NoDup (map lh_name (List.concat keys)) -> nth_error keys k = Some g -> nth_error keys k' = Some g' ->
    In l g -> In l' g' -> lh_name l = lh_name l' -> k = k' /\ l = l'.
Proof.
  induction keys as [|h r IH]; intros k k' g g' l l' N K K' L L' E; [destruct k; discriminate|].
  cbn in N. rewrite map_app in N.
  assert (D : forall a b, In a h -> In b (List.concat r) -> lh_name a = lh_name b -> False).
  { clear -N. intros a b A B E. induction h as [|x h IH]; [destruct A|]. cbn in N. inversion N; subst.
    destruct A as [-> |A]; auto. apply H1. apply in_or_app. right. rewrite E. apply in_map. exact B. }
  assert (U : forall a b, In a h -> In b h -> lh_name a = lh_name b -> a = b).
  { clear -N. intros a b A B E. induction h as [|x h IH]; [destruct A|]. cbn in N. inversion N; subst.
    destruct A as [-> |A], B as [-> |B]; auto.
    - destruct H1. rewrite E. apply in_or_app. left. apply in_map. exact B.
    - destruct H1. rewrite <- E. apply in_or_app. left. apply in_map. exact A. }
  assert (N2 : NoDup (map lh_name (List.concat r))).
  { clear -N. induction h as [|x h IH]; auto. cbn in N. inversion N; auto. }
  destruct k as [|k], k' as [|k']; cbn in K, K'.
  - injection K as ->. injection K' as ->. split; auto.
  - injection K as ->. destruct (D l l'); auto. apply in_concat. exists g'. split; auto. eapply nth_error_In; eauto.
  - injection K' as ->. destruct (D l' l); auto. apply in_concat. exists g. split; auto. eapply nth_error_In; eauto.
  - destruct (IH k k' g g' l l' N2 K K' L L' E) as [-> ->]. auto.
Qed.
Lemma key_of_at : forall s i k g l, In s shorthand_table -> nth_error (sh_keys s) k = Some g -> In l g -> lh_is l i = true ->
    key_of i (sh_keys s) 0 = Some (k, List.length g).
Proof.
  intros s i k g l T K L I. destruct (table_ok_at s T) as [N _].
  destruct (key_of i (sh_keys s) 0) as [[k' n]|] eqn:E.
  - destruct (key_of_some _ _ _ _ _ E) as (g' & l' & _ & K' & L' & I' & ->). rewrite Nat.sub_0_r in K'.
    apply lh_is_iff in I as [I _]. apply lh_is_iff in I' as [I' _].
    destruct (nodup_concat_index _ _ _ _ _ _ _ N K K' L L' ltac:(congruence)) as [-> ->]. congruence.
  - pose proof (key_of_none _ _ _ E g l (nth_error_In _ _ K) L). congruence.
Qed.

(** ** What a declaration says, as a function *)
Definition say_short (f : nat -> said) (i l : pid) : option said :=
  match find_sh i with
  | Some s =>
      match key_of l (sh_keys s) 0 with
      | Some (k, _) => if (match l with PVp _ p => vs_eqb p (prefix_of i) | _ => true end) then Some (f k) else None
      | None => None
      end
  | None => None
  end.
Definition reset_by_allb (l : pid) : bool :=
  match l with
  | PCustom _ | PAll => false
  | _ => negb (String.eqb (pid_name l) "direction") && negb (String.eqb (pid_name l) "unicode-bidi")
  end.
Lemma reset_by_allb_iff : forall l, reset_by_allb l = true <-> reset_by_all l.
Proof.
  intros l; destruct l as [n p|n| |n]; cbn [reset_by_allb reset_by_all pid_name]; try (split; [discriminate|tauto]);
    rewrite andb_true_iff, !negb_true_iff, !String.eqb_neq; tauto.
Qed.
Definition say (d : property) (l : pid) : option said :=
  match d with
  | PLong i v => if pid_eqb i l then Some (Value v)
                 else if pid_eqb i PAll && reset_by_allb l then Some (Reset v) else None
  | PShort i vs => say_short (fun k => Value (nth k vs [])) i l
  | PUnparsed i v =>
      match find_sh i with
      | Some _ => say_short (fun _ => Pending) i l
      | None => if pid_eqb i l then Some (Raw v) else None
      end
  end.

Lemma longhand_prefix : forall x i, (match longhand_id x (prefix_of i) with PVp _ p => vs_eqb p (prefix_of i) | _ => true end) = true.
Proof. intros x i. unfold longhand_id. destruct (lh_vp x); auto. apply vs_eqb_refl. Qed.
Lemma say_short_at : forall f i s k g x, In s shorthand_table -> names i s -> nth_error (sh_keys s) k = Some g -> In x g ->
    say_short f i (longhand_id x (prefix_of i)) = Some (f k).
Proof.
  intros f i s k g x T N K X. unfold say_short. rewrite (names_find i s T N).
  rewrite (key_of_at s _ k g x T K X (lh_is_own x _)). rewrite longhand_prefix. reflexivity.
Qed.
Lemma say_short_inv : forall f i l y, say_short f i l = Some y ->
    exists s k g x, In s shorthand_table /\ names i s /\ nth_error (sh_keys s) k = Some g /\ In x g /\
                    l = longhand_id x (prefix_of i) /\ y = f k.
Proof.
  intros f i l y H. unfold say_short in H. destruct (find_sh i) as [s|] eqn:F; [|discriminate].
  apply find_names in F as [T N].
  destruct (key_of l (sh_keys s) 0) as [[k n]|] eqn:E; [|discriminate].
  destruct (key_of_some _ _ _ _ _ E) as (g & x & _ & K & X & I & _). rewrite Nat.sub_0_r in K.
  exists s, k, g, x. repeat split; auto.
  - apply lh_is_id in I. destruct l as [n' p|n'| |n']; cbn in I.
    + destruct (vs_eqb p (prefix_of i)) eqn:P; [|discriminate]. apply vs_eqb_iff in P. subst p. symmetry. exact I.
    + unfold longhand_id in *. destruct (lh_vp x); [discriminate|]. symmetry; exact I.
    + unfold longhand_id in I. destruct (lh_vp x); discriminate.
    + unfold longhand_id in I. destruct (lh_vp x); discriminate.
  - destruct (match l with PVp _ p => _ | _ => _ end); [|discriminate]. injection H as <-. reflexivity.
Qed.

Lemma nth_error_nth_default : forall (vs : list value) k v, nth_error vs k = Some v -> nth k vs [] = v.
Proof. intros vs k v H. erewrite nth_error_nth; eauto. Qed.

Lemma typed_short : forall i vs s, typed (PShort i vs) -> In s shorthand_table -> names i s -> List.length vs = List.length (sh_keys s).
Proof.
  intros i vs s [_ (t & T & M & L & _)] S N. rewrite (names_unique i s t S T N M). exact L.
Qed.

Lemma says_to_say : forall d l x, says d l x -> say d l = Some x.
Proof.
  intros d l x H. destruct H as [i v|v l R|i vs s k g l v T N K L V|i v S|i v s g l T N G L]; cbn [say].
  + rewrite pid_eqb_refl. reflexivity.
  + pose proof (proj2 (reset_by_allb_iff l) R) as R'. rewrite pid_eqb_refl. cbn [andb]. rewrite R'.
    destruct (pid_eqb PAll l) eqn:E; auto. apply pid_eqb_iff in E. subst. destruct R.
  + rewrite (say_short_at _ i s k g l T N K L). f_equal. f_equal. apply nth_error_nth_default. exact V.
  + apply find_none_short in S. rewrite S, pid_eqb_refl. reflexivity.
  + rewrite (names_find i s T N). apply In_nth_error in G as [k K]. exact (say_short_at _ i s k g l T N K L).
Qed.
Lemma says_say : forall d l x, typed d -> says d l x <-> say d l = Some x.
Proof.
  intros d l x TY. split; [apply says_to_say|].
  - intros H. destruct d as [i v|i vs|i v]; cbn [say] in H.
    + destruct (pid_eqb i l) eqn:E.
      * apply pid_eqb_iff in E. injection H as <-. subst. constructor.
      * destruct (pid_eqb i PAll) eqn:E2; [|discriminate]. cbn [andb] in H. destruct (reset_by_allb l) eqn:R; [|discriminate].
        injection H as <-. apply pid_eqb_iff in E2. subst. constructor. apply reset_by_allb_iff. exact R.
    + apply say_short_inv in H as (s & k & g & y & T & N & K & Y & -> & ->).
      assert (V : exists v, nth_error vs k = Some v).
      { destruct (nth_error vs k) as [v|] eqn:E; [eauto|]. apply nth_error_None in E.
        pose proof (typed_short _ _ _ TY T N). apply (f_equal (fun o => match o with Some _ => true | None => false end)) in K.
        assert (k < List.length (sh_keys s)); [|lia]. apply nth_error_Some. intros Z. rewrite Z in K. discriminate. }
      destruct V as [v V]. rewrite (nth_error_nth_default _ _ _ V). exact (says_short i vs s k g y v T N K Y V).
    + destruct (find_sh i) as [s|] eqn:F.
      * apply say_short_inv in H as (s' & k & g & y & T & N & K & Y & -> & ->).
        exact (says_pending i v s' g y T N (nth_error_In _ _ K) Y).
      * destruct (pid_eqb i l) eqn:E; [|discriminate]. apply pid_eqb_iff in E. injection H as <-. subst. constructor.
        apply find_none_short. exact F.
Qed.

(** ** The last declaration, as a function *)
Fixpoint last_say (l : pid) (ds : list property) : option said :=
  match ds with
  | [] => None
  | d :: r => match last_say l r with Some x => Some x | None => say d l end
  end.
Definition all_typed (ds : list property) : Prop := forall d, In d ds -> typed d.

Lemma silent_iff : forall l ds, all_typed ds -> silent l ds <-> last_say l ds = None.
Proof.
  induction ds as [|d r IH]; intros T; cbn [last_say].
  - split; auto. intros _ d x [].
  - assert (Tr : all_typed r) by (intros e E; apply T; right; exact E).
    assert (Td : typed d) by (apply T; left; reflexivity).
    split.
    + intros S. assert (Sr : silent l r) by (intros e x E; apply S; right; exact E). rewrite (proj1 (IH Tr) Sr).
      destruct (say d l) as [x|] eqn:E; auto. apply (says_say d l x Td) in E. destruct (S d x); auto. left; reflexivity.
    + intros H. destruct (last_say l r) as [x|] eqn:E; [discriminate|].
      intros e x [<- |I] B; [|exact (proj2 (IH Tr) eq_refl e x I B)].
      apply (says_say d l x Td) in B. congruence.
Qed.
Lemma last_says_iff : forall l ds x, all_typed ds -> last_says l ds x <-> last_say l ds = Some x.
Proof.
  induction ds as [|d r IH]; intros x T; cbn [last_say].
  - split; [|discriminate]. intros (a & e & c & E & _). destruct a; discriminate.
  - assert (Tr : all_typed r) by (intros e E; apply T; right; exact E).
    assert (Td : typed d) by (apply T; left; reflexivity).
    split.
    + intros (a & e & c & E & S & SL). destruct a as [|y a]; injection E as -> ->.
      * rewrite (proj1 (silent_iff l c Tr) SL). apply says_say; auto.
      * assert (last_says l (a ++ e :: c) x) by (exists a, e, c; auto). rewrite (proj1 (IH x Tr) H). reflexivity.
    + intros H. destruct (last_say l r) as [y|] eqn:E.
      * injection H as ->. destruct (proj2 (IH x Tr) eq_refl) as (a & e & c & -> & S & SL). exists (d :: a), e, c. auto.
      * exists [], d, r. split; [reflexivity|]. split; [apply says_say; auto|apply silent_iff; auto].
Qed.
Definition cascade (b : block) (l : pid) : option (said * bool) :=
  match last_say l (b_important b) with
  | Some x => Some (x, true)
  | None => option_map (fun x => (x, false)) (last_say l (b_normal b))
  end.
Lemma cascaded_iff : forall b l x i, typed_block b -> cascaded b l x i <-> cascade b l = Some (x, i).
Proof.
  intros b l x i T.
  assert (T1 : all_typed (b_important b)) by (intros d D; apply T; auto).
  assert (T2 : all_typed (b_normal b)) by (intros d D; apply T; auto).
  unfold cascaded, cascade. destruct i.
  - rewrite (last_says_iff l _ x T1). destruct (last_say l (b_important b)) as [y|].
    + split; intros H; injection H as ->; reflexivity.
    + split; [discriminate|]. destruct (last_say l (b_normal b)); discriminate.
  - rewrite (last_says_iff l _ x T2), (silent_iff l _ T1). destruct (last_say l (b_important b)) as [y|].
    + split; [intros [H _]; discriminate|discriminate].
    + destruct (last_say l (b_normal b)) as [z|]; cbn; split.
      * intros [_ H]. injection H as ->. reflexivity.
      * intros H. injection H as ->. auto.
      * intros [_ H]. discriminate.
      * discriminate.
Qed.

Lemma last_say_app : forall l a b, last_say l (a ++ b) = match last_say l b with Some x => Some x | None => last_say l a end.
Proof.
  induction a as [|d r IH]; intros b; cbn [last_say app]; [destruct (last_say l b); reflexivity|].
  rewrite IH. destruct (last_say l b); reflexivity.
Qed.
