(** Proofs about selector matching: the element tree, the index cache, and the
    matcher's early exits. *)
From Coq Require Import ZArith NArith List Bool String Relations Lia.
From Verif Require Import BloomModel SelectorModel SelectorSpec.
Import ListNotations.

(** * Names *)

Lemma lower_same : forall c d, lower_ascii c = lower_ascii d <-> same_letter c d.
Proof.
  assert (L : forall n, n < 26 -> lower_ascii (Ascii.ascii_of_nat (65 + n)) = Ascii.ascii_of_nat (97 + n)
                             /\ lower_ascii (Ascii.ascii_of_nat (97 + n)) = Ascii.ascii_of_nat (97 + n)).
  { intros n H. do 26 (destruct n as [|n]; [split; reflexivity|]). lia. }
  intros c d. split.
  - unfold lower_ascii. set (x := Ascii.nat_of_ascii c). set (y := Ascii.nat_of_ascii d).
    assert (Hc : c = Ascii.ascii_of_nat x) by (symmetry; apply Ascii.ascii_nat_embedding).
    assert (Hd : d = Ascii.ascii_of_nat y) by (symmetry; apply Ascii.ascii_nat_embedding).
    assert (Bx : x < 256) by apply Ascii.nat_ascii_bounded. assert (By : y < 256) by apply Ascii.nat_ascii_bounded.
    destruct (Nat.leb 65 x && Nat.leb x 90) eqn:A, (Nat.leb 65 y && Nat.leb y 90) eqn:B;
      try (apply andb_true_iff in A; rewrite !PeanoNat.Nat.leb_le in A);
      try (apply andb_true_iff in B; rewrite !PeanoNat.Nat.leb_le in B).
    + intros E. left. apply (f_equal Ascii.nat_of_ascii) in E.
      rewrite !Ascii.nat_ascii_embedding in E by lia. rewrite Hc, Hd. f_equal. lia.
    + intros E. right. exists (x - 65). split; [lia|]. left. split; [rewrite Hc; f_equal; lia|]. rewrite <- E. f_equal. lia.
    + intros E. right. exists (y - 65). split; [lia|]. right. split; [rewrite E; f_equal; lia|]. rewrite Hd. f_equal. lia.
    + intros E. left. exact E.
  - intros [E|(n & H & [[E F]|[E F]])]; [congruence| |]; rewrite E, F; destruct (L n H) as [-> ->]; reflexivity.
Qed.
Lemma lower_names : forall x y, lower_string x = lower_string y <-> same_letters x y.
Proof.
  induction x as [|c x IH]; intros [|d y]; cbn; split; intros H; try discriminate; try constructor; try (inversion H; fail).
  - injection H as H1 H2. apply lower_same. exact H1.
  - injection H as H1 H2. apply IH. exact H2.
  - inversion H; subst. f_equal; [apply lower_same|apply IH]; assumption.
Qed.
Lemma name_eq_ok : forall cx x y, name_eq cx x y = true <-> same_name cx x y.
Proof.
  intros cx x y. unfold name_eq, same_name. destruct (c_quirks cx); rewrite String.eqb_eq; [apply lower_names|reflexivity].
Qed.

(** * Induction over nested selectors *)

Definition subs (c : comp) : list sel :=
  match c with
  | CNthOf _ _ _ l | CNot l | CIs l | CAny l | CWhere l | CHas l => l
  | CSlotted s => [s]
  | CHost (Some s) => [s]
  | _ => []
  end.

Section Ind.
Variable P : comp -> Prop.
Hypothesis H : forall c, Forall (fun s : sel => Forall P (snd s)) (subs c) -> P c.

Definition forall_list {A} (Q : A -> Prop) (f : forall a, Q a) : forall l, Forall Q l :=
  fix go l := match l with [] => Forall_nil _ | a :: r => Forall_cons _ (f a) (go r) end.

Fixpoint comp_ind' (c : comp) : P c :=
  H c
    (match c return Forall (fun s : sel => Forall P (snd s)) (subs c) with
     | CNthOf _ _ _ l | CNot l | CIs l | CAny l | CWhere l | CHas l =>
         (fix go (l : list (N * list comp)) : Forall (fun s : sel => Forall P (snd s)) l :=
            match l return Forall (fun s : sel => Forall P (snd s)) l with
            | [] => Forall_nil _
            | s :: r =>
                Forall_cons s
                  (match s return Forall P (snd s) with
                   | (_, items) =>
                       (fix it (items : list comp) : Forall P items :=
                          match items with
                          | [] => Forall_nil _
                          | x :: r => Forall_cons _ (comp_ind' x) (it r)
                          end) items
                   end) (go r)
            end) l
     | CSlotted s | CHost (Some s) =>
         Forall_cons (P := fun s : sel => Forall P (snd s)) s
           (match s return Forall P (snd s) with
            | (_, items) =>
                (fix it (items : list comp) : Forall P items :=
                   match items with
                   | [] => Forall_nil _
                   | x :: r => Forall_cons _ (comp_ind' x) (it r)
                   end) items
            end) (Forall_nil _)
     | _ => Forall_nil _
     end).
End Ind.

(** * The element tree *)

Lemma prev_list_unfold : forall e,
  prev_list e = match prev_sibling e with None => [] | Some p => p :: prev_list p end.
Proof. intros [d [|p ps] ns par]; reflexivity. Qed.

Lemma next_list_unfold : forall e,
  next_list e = match next_sibling e with None => [] | Some p => p :: next_list p end.
Proof. intros [d ps [|n ns] par]; reflexivity. Qed.

Lemma anc_list_unfold : forall e,
  anc_list e = match parent_element e with None => [] | Some p => p :: anc_list p end.
Proof. intros [d ps ns [p|]]; reflexivity. Qed.

Lemma prev_ind : forall (P : elem -> Prop),
  (forall e, (forall p, prev_sibling e = Some p -> P p) -> P e) -> forall e, P e.
Proof.
  intros P H [d ps ns par]. revert d ns.
  induction ps as [|p ps IH]; intros d ns; apply H; cbn [prev_sibling]; intros q E.
  - discriminate.
  - injection E as <-. apply IH.
Qed.

Lemma next_ind : forall (P : elem -> Prop),
  (forall e, (forall p, next_sibling e = Some p -> P p) -> P e) -> forall e, P e.
Proof.
  intros P H [d ps ns par]. revert d ps.
  induction ns as [|p ns IH]; intros d ps; apply H; cbn [next_sibling]; intros q E.
  - discriminate.
  - injection E as <-. apply IH.
Qed.

Fixpoint anc_ind (P : elem -> Prop)
  (H : forall e, (forall p, parent_element e = Some p -> P p) -> P e) (e : elem) : P e.
Proof.
  apply H. destruct e as [d ps ns [p|]]; cbn [parent_element]; intros q E.
  - injection E as <-. apply anc_ind; exact H.
  - discriminate.
Qed.

Lemma prev_parent : forall e p, prev_sibling e = Some p -> parent_element p = parent_element e.
Proof. intros [d [|p ps] ns par] q; cbn; intros E; [discriminate|]. injection E as <-. reflexivity. Qed.

Lemma prev_anc : forall e p, prev_sibling e = Some p -> anc_list p = anc_list e.
Proof.
  intros e p E. rewrite (anc_list_unfold p), (anc_list_unfold e), (prev_parent _ _ E). reflexivity.
Qed.

Lemma in_prev_parent : forall e x, In x (prev_list e) -> parent_element x = parent_element e.
Proof.
  induction e as [e IH] using prev_ind. intros x. rewrite prev_list_unfold.
  destruct (prev_sibling e) as [p|] eqn:E; [|intros []].
  intros [<-|I]; [apply prev_parent; exact E|].
  rewrite (IH p eq_refl x I). apply prev_parent; exact E.
Qed.

Lemma in_prev_anc : forall e x, In x (prev_list e) -> anc_list x = anc_list e.
Proof.
  intros e x I. rewrite (anc_list_unfold x), (anc_list_unfold e), (in_prev_parent _ _ I). reflexivity.
Qed.

Lemma in_prev_trans : forall e x y, In x (prev_list e) -> In y (prev_list x) -> In y (prev_list e).
Proof.
  induction e as [e IH] using prev_ind. intros x y. rewrite (prev_list_unfold e).
  destruct (prev_sibling e) as [p|] eqn:E; [|intros []].
  intros [<-|I] J; right; [exact J | exact (IH p eq_refl x y I J)].
Qed.

Lemma in_anc_trans : forall e x y, In x (anc_list e) -> In y (anc_list x) -> In y (anc_list e).
Proof.
  induction e as [e IH] using anc_ind. intros x y. rewrite (anc_list_unfold e).
  destruct (parent_element e) as [p|] eqn:E; [|intros []].
  intros [<-|I] J; right; [exact J | exact (IH p eq_refl x y I J)].
Qed.

Lemma later_in : forall x y, clos_trans elem is_prev x y <-> In x (prev_list y).
Proof.
  split.
  - induction 1 as [x y R | x y z _ IH1 _ IH2].
    + unfold is_prev in R. rewrite prev_list_unfold, R. left; reflexivity.
    + eapply in_prev_trans; eassumption.
  - revert x. induction y as [e IH] using prev_ind. intros x. rewrite prev_list_unfold.
    destruct (prev_sibling e) as [p|] eqn:E; [|intros []].
    intros [<-|I]; [apply t_step; exact E|].
    eapply t_trans; [exact (IH p eq_refl x I)|apply t_step; exact E].
Qed.

Lemma desc_in : forall x y, clos_trans elem is_parent x y <-> In x (anc_list y).
Proof.
  split.
  - induction 1 as [x y R | x y z _ IH1 _ IH2].
    + unfold is_parent in R. rewrite anc_list_unfold, R. left; reflexivity.
    + eapply in_anc_trans; eassumption.
  - revert x. induction y as [e IH] using anc_ind. intros x. rewrite anc_list_unfold.
    destruct (parent_element e) as [p|] eqn:E; [|intros []].
    intros [<-|I]; [apply t_step; exact E|].
    eapply t_trans; [exact (IH p eq_refl x I)|apply t_step; exact E].
Qed.

Lemma small_prev : forall n e p, small n e -> prev_sibling e = Some p -> small n p.
Proof.
  intros n [d [|q ps] ns par] p; cbn [prev_sibling]; intros S E; [discriminate|].
  injection E as <-. cbn [small] in *. cbn [List.length] in *. destruct S as [L S].
  split; [lia|exact S].
Qed.

Lemma small_parent : forall n e p, small n e -> parent_element e = Some p -> small n p.
Proof.
  intros n [d ps ns par] p; cbn [parent_element small]; intros [_ S] E. subst par. exact S.
Qed.

(** * The index cache *)

Definition icache_ok (of_type from_end : bool) (c : icache) : Prop :=
  forall e i, icache_lookup c e = Some i -> i = sibling_index e of_type from_end.

Definition cache_ok (s : st) : Prop :=
  match s with
  | None => True
  | Some k => forall t f, icache_ok t f (ncache_get k t f)
  end.

Lemma is_same_type_data : forall x y, is_same_type x y = same_type_data (e_data x) (e_data y).
Proof. reflexivity. Qed.

Lemma same_type_eq : forall x y, same_type_data x y = true ->
  forall z, same_type_data x z = same_type_data y z.
Proof.
  unfold same_type_data. intros x y E z. apply andb_true_iff in E. destruct E as [E1 E2].
  apply String.eqb_eq in E1, E2. rewrite E1, E2. reflexivity.
Qed.

Lemma same_type_refl : forall x, same_type_data x x = true.
Proof. intros x. unfold same_type_data. rewrite !String.eqb_refl. reflexivity. Qed.

Lemma same_type_sym : forall x y, same_type_data x y = same_type_data y x.
Proof.
  intros x y. unfold same_type_data. rewrite (String.eqb_sym (n_name x)), (String.eqb_sym (n_ns x)).
  reflexivity.
Qed.

(** How many siblings a walk counts. *)
Definition counted (d : ndata) (of_type : bool) (l : list ndata) : Z :=
  Z.of_nat (List.length (if of_type then filter (same_type_data d) l else l)).

Lemma counted_cons : forall d t x l,
  counted d t (x :: l) = ((if negb t || same_type_data d x then 1 else 0) + counted d t l)%Z.
Proof.
  intros d t x l. unfold counted. destruct t; cbn [negb orb filter].
  - destruct (same_type_data d x); cbn [List.length]; lia.
  - cbn [List.length]. lia.
Qed.

Lemma counted_nil : forall d t, counted d t [] = 0%Z.
Proof. intros d []; reflexivity. Qed.

Lemma counted_same : forall d d' t l, (negb t || same_type_data d d') = true ->
  counted d t l = counted d' t l.
Proof.
  intros d d' [] l E; [|reflexivity]. cbn in E. unfold counted. f_equal. f_equal.
  apply filter_ext. intros x. apply same_type_eq. exact E.
Qed.

Lemma sibling_index_counted : forall e t f,
  sibling_index e t f = (1 + counted (e_data e) t (if f then e_nexts e else e_prevs e))%Z.
Proof. intros e [] []; reflexivity. Qed.

(** Walking left without cache hits counts the siblings; with a hit, the
    index of the cached element is right. *)
Lemma walk_prev : forall e t look e0 index,
  (forall c i, look c = Some i -> i = sibling_index c t false) ->
  match nth_walk e t look (prev_list e0) index with
  | inl (i, ix) => (i + ix = index + counted (e_data e) t (e_prevs e0))%Z
  | inr ix => (ix = index + counted (e_data e) t (e_prevs e0))%Z
  end.
Proof.
  intros e t look e0. induction e0 as [e0 IH] using prev_ind. intros index L.
  rewrite prev_list_unfold.
  destruct e0 as [d [|p ps] ns par]; cbn [prev_sibling e_prevs].
  - cbn [nth_walk]. rewrite counted_nil. lia.
  - cbn [nth_walk]. rewrite counted_cons. rewrite is_same_type_data. cbn [e_data].
    specialize (IH _ eq_refl). cbn [e_prevs] in IH.
    destruct (negb t || same_type_data (e_data e) p) eqn:T.
    + destruct (look (Elem p ps (d :: ns) par)) as [i|] eqn:K.
      * apply L in K. rewrite sibling_index_counted in K. cbn [e_data e_prevs] in K.
        rewrite (counted_same _ _ _ ps T). lia.
      * specialize (IH (index + 1)%Z L).
        destruct (nth_walk e t look _ (index + 1)) as [[i ix]|ix]; lia.
    + specialize (IH index L). destruct (nth_walk e t look _ index) as [[i ix]|ix]; lia.
Qed.

Lemma walk_next : forall e t e0 index,
  nth_walk e t (fun _ => None) (next_list e0) index
  = inr (index + counted (e_data e) t (e_nexts e0))%Z.
Proof.
  intros e t e0. induction e0 as [e0 IH] using next_ind. intros index.
  rewrite next_list_unfold.
  destruct e0 as [d ps [|p ns] par]; cbn [next_sibling e_nexts].
  - cbn [nth_walk]. rewrite counted_nil. f_equal. lia.
  - cbn [nth_walk]. rewrite counted_cons. rewrite is_same_type_data. cbn [e_data].
    specialize (IH _ eq_refl). cbn [e_nexts] in IH.
    destruct (negb t || same_type_data (e_data e) p); rewrite IH; f_equal; lia.
Qed.

(** Walking left through a cache of indices from the end: the cached index
    minus the number of counted steps. *)
Lemma walk_back : forall e t look,
  (forall c i, look c = Some i -> i = sibling_index c t true) ->
  forall e0 index,
  (index = 1 + counted (e_data e) t (e_data e0 :: e_nexts e0) - sibling_index e t true)%Z ->
  match nth_walk e t look (prev_list e0) index with
  | inl (i, ix) => (i - ix = sibling_index e t true)%Z
  | inr _ => True
  end.
Proof.
  intros e t look L. induction e0 as [e0 IH] using prev_ind. intros index I.
  rewrite prev_list_unfold.
  destruct e0 as [d [|p ps] ns par]; cbn [prev_sibling].
  - exact Logic.I.
  - cbn [nth_walk]. rewrite is_same_type_data. cbn [e_data e_nexts] in *.
    specialize (IH _ eq_refl). cbn [e_data e_nexts] in IH.
    rewrite counted_cons in IH.
    destruct (negb t || same_type_data (e_data e) p) eqn:T.
    + destruct (look (Elem p ps (d :: ns) par)) as [i|] eqn:K.
      * apply L in K. rewrite sibling_index_counted in K. cbn [e_data e_nexts] in K.
        rewrite <- (counted_same _ _ _ (d :: ns) T) in K. lia.
      * apply IH. lia.
    + apply IH. lia.
Qed.

Lemma index_correct : forall e t f c,
  (forall k, c = Some k -> icache_ok t f k) ->
  nth_child_index e t f c = sibling_index e t f.
Proof.
  intros e t f c OK. unfold nth_child_index.
  assert (Plain : forall look, (forall x i, look x = Some i -> f = false /\ i = sibling_index x t false) ->
    match nth_walk e t look (if f then next_list e else prev_list e) 1 with
    | inl (i, index) => (i + index)%Z | inr index => index end = sibling_index e t f).
  { intros look L. rewrite sibling_index_counted. destruct f.
    - assert (Eq : forall l ix, nth_walk e t look l ix = nth_walk e t (fun _ => None) l ix).
      { induction l as [|x l IH]; intros ix; [reflexivity|]. cbn [nth_walk].
        destruct (look x) as [i|] eqn:K; [apply L in K; destruct K; discriminate|].
        rewrite !IH. reflexivity. }
      rewrite Eq, walk_next. lia.
    - pose proof (walk_prev e t look e 1 (fun x i E => proj2 (L x i E))) as W.
      destruct (nth_walk e t look (prev_list e) 1) as [[i ix]|ix]; lia. }
  destruct c as [k|].
  - specialize (OK k eq_refl).
    assert (L : forall x i, (if f then None else icache_lookup k x) = Some i ->
              f = false /\ i = sibling_index x t false).
    { intros x i E. destruct f; [discriminate|]. split; [reflexivity|]. exact (OK x i E). }
    rewrite (Plain _ L).
    destruct (f && negb (icache_is_empty k)) eqn:FE; [|reflexivity].
    destruct f; [|discriminate].
    pose proof (walk_back e t (icache_lookup k) OK e 1) as W.
    destruct (nth_walk e t (icache_lookup k) (prev_list e) 1) as [[i ix]|ix]; [|reflexivity].
    apply W. rewrite counted_cons, same_type_refl, orb_true_r, sibling_index_counted. lia.
  - apply Plain. intros x i E. destruct f; discriminate.
Qed.

Lemma elem_eqb_eq : forall x y, elem_eqb x y = true <-> x = y.
Proof.
  intros x y. unfold elem_eqb. destruct (elem_dec x y) as [E|E]; split; intros H; auto; discriminate.
Qed.

Lemma get_set : forall k t f i t' f',
  ncache_get (ncache_set k t f i) t' f'
  = if Bool.eqb t t' && Bool.eqb f f' then i else ncache_get k t' f'.
Proof. intros k [] [] i [] []; reflexivity. Qed.

Lemma generic_ok : forall e a b t f s, cache_ok s ->
  exists s', generic_nth e a b t f s = Some (nth_hit a b (sibling_index e t f), s') /\ cache_ok s'.
Proof.
  intros e a b t f [k|] OK; unfold generic_nth.
  - cbn in OK. destruct (icache_lookup (ncache_get k t f) e) as [i|] eqn:L.
    + rewrite (OK t f e i L). eexists; split; [reflexivity|exact OK].
    + rewrite (index_correct e t f (Some (ncache_get k t f)))
        by (intros k' E; injection E as <-; apply OK).
      eexists; split; [reflexivity|]. cbn [cache_ok]. intros t' f'. rewrite get_set.
      destruct (Bool.eqb t t' && Bool.eqb f f') eqn:TF; [|apply OK].
      apply andb_true_iff in TF. destruct TF as [Et Ef].
      apply Bool.eqb_prop in Et, Ef. subst t' f'.
      intros x i. cbn [icache_insert icache_lookup].
      destruct (elem_eqb e x) eqn:EX.
      * apply elem_eqb_eq in EX. subst x. intros E. injection E as <-. reflexivity.
      * apply OK.
  - rewrite (index_correct e t f None) by discriminate.
    eexists; split; [reflexivity|exact OK].
Qed.

(** * An+B *)

Local Open Scope Z_scope.

Lemma nth_hit_ok : forall a b i,
  in_i32 a = true -> in_i32 b = true -> 1 <= i -> i - b <= 2147483647 ->
  (nth_hit a b i = true <-> an_plus_b a b i).
Proof.
  intros a b i Ha Hb Hi Hs. unfold nth_hit, checked_sub, an_plus_b.
  unfold in_i32 in Ha, Hb. apply andb_true_iff in Ha, Hb.
  rewrite !Z.leb_le in *. destruct Ha as [Ha1 Ha2], Hb as [Hb1 Hb2].
  assert (In1 : in_i32 (i - b) = true).
  { unfold in_i32. apply andb_true_iff. rewrite !Z.leb_le. lia. }
  rewrite In1. unfold checked_div.
  destruct (a =? 0) eqn:A0.
  - apply Z.eqb_eq in A0. subst a. rewrite Z.eqb_eq. split.
    + intros E. exists 0. lia.
    + intros [n [_ E]]. lia.
  - apply Z.eqb_neq in A0.
    assert (In2 : in_i32 (Z.quot (i - b) a) = true).
    { unfold in_i32. apply andb_true_iff. rewrite !Z.leb_le.
      assert (Q : Z.abs (Z.quot (i - b) a) <= Z.abs (i - b)).
      { rewrite <- Z.quot_abs by exact A0.
        apply Z.quot_le_upper_bound; [lia|]. nia. }
      lia. }
    rewrite In2, andb_true_iff, Z.leb_le, Z.eqb_eq. split.
    + intros [N0 E]. exists (Z.quot (i - b) a). lia.
    + intros [n [N0 E]]. assert (Q : Z.quot (i - b) a = n).
      { replace (i - b) with (n * a) by lia. apply Z.quot_mul. exact A0. }
      rewrite Q. lia.
Qed.

Lemma filter_short : forall (A : Type) (f : A -> bool) l,
  (List.length (filter f l) <= List.length l)%nat.
Proof.
  intros A f l. induction l as [|x l IH]; [reflexivity|]. cbn [filter].
  destruct (f x); cbn [List.length]; lia.
Qed.

Lemma small_index : forall n e t f, small n e -> 1 <= sibling_index e t f <= n.
Proof.
  intros n [d ps ns par] t f [S _]. rewrite sibling_index_counted. cbn [e_data e_nexts e_prevs].
  assert (L : forall l, counted d t l <= Z.of_nat (List.length l)).
  { intros l. unfold counted. destruct t; [|lia].
    pose proof (filter_short _ (same_type_data d) l). lia. }
  assert (G : forall l, 0 <= counted d t l) by (intros l; unfold counted; lia).
  rewrite Nat2Z.inj_add in S. destruct f; [pose proof (L ns); pose proof (G ns)|pose proof (L ps); pose proof (G ps)]; lia.
Qed.

Lemma first_child_ok : forall e, first_child e = true <-> e_prevs e = [].
Proof. intros [d [|p ps] ns par]; cbn; split; congruence. Qed.
Lemma last_child_ok : forall e, last_child e = true <-> e_nexts e = [].
Proof. intros [d ps [|n ns] par]; cbn; split; congruence. Qed.

Lemma an_01 : forall i, an_plus_b 0 1 i <-> i = 1.
Proof. intros i. unfold an_plus_b. split; [intros [n [_ E]]; lia|intros ->; exists 0; lia]. Qed.

Lemma counted_zero : forall d t l, counted d t l = 0 <->
  (forall x, In x l -> (negb t || same_type_data d x) = false).
Proof.
  intros d t l. induction l as [|x l IH].
  - rewrite counted_nil. split; [intros _ x []|reflexivity].
  - rewrite counted_cons. assert (G : 0 <= counted d t l) by (unfold counted; lia).
    split.
    + intros E y [<-|I].
      * destruct (negb t || same_type_data d x); [lia|reflexivity].
      * apply IH; [|exact I]. destruct (negb t || same_type_data d x); lia.
    + intros A. rewrite (A x (or_introl eq_refl)). apply IH. intros y I. apply A. right; exact I.
Qed.

Lemma index_one_plain : forall e f, sibling_index e false f = 1 <-> (if f then e_nexts e else e_prevs e) = [].
Proof.
  intros e f. rewrite sibling_index_counted.
  destruct (if f then e_nexts e else e_prevs e) as [|x l]; [rewrite counted_nil; split; auto|].
  rewrite counted_cons. cbn [negb orb]. assert (0 <= counted (e_data e) false l) by (unfold counted; lia).
  split; [lia|discriminate].
Qed.

Lemma match_nth_ok : forall n ty a b e s, cache_ok s -> small n e ->
  supported n (CNth ty a b) ->
  exists r s', match_nth ty a b e s = Some (r, s') /\ cache_ok s' /\ (r = true <-> sem_nth ty a b e).
Proof.
  intros n ty a b e s OK S Sup. cbn [supported] in Sup.
  destruct Sup as (N1 & N2 & Ia & Ib & Nb).
  assert (Hit : forall t f, nth_hit a b (sibling_index e t f) = true <-> an_plus_b a b (sibling_index e t f)).
  { intros t f. pose proof (small_index n e t f S). apply nth_hit_ok; try assumption; lia. }
  assert (Gen : forall t f, exists r s', generic_nth e a b t f s = Some (r, s') /\ cache_ok s' /\
            (r = true <-> an_plus_b a b (sibling_index e t f))).
  { intros t f. destruct (generic_ok e a b t f s OK) as (s' & E & OK').
    exists (nth_hit a b (sibling_index e t f)), s'. split; [exact E|]. split; [exact OK'|apply Hit]. }
  destruct ty; try contradiction; try congruence; cbn [match_nth sem_nth].
  - destruct ((a =? 0) && (b =? 1)) eqn:AB; [|apply Gen].
    apply andb_true_iff in AB. rewrite !Z.eqb_eq in AB. destruct AB as [-> ->].
    exists (first_child e), s. split; [reflexivity|]. split; [exact OK|].
    rewrite first_child_ok, an_01. symmetry. apply (index_one_plain e false).
  - destruct ((a =? 0) && (b =? 1)) eqn:AB; [|apply Gen].
    apply andb_true_iff in AB. rewrite !Z.eqb_eq in AB. destruct AB as [-> ->].
    exists (last_child e), s. split; [reflexivity|]. split; [exact OK|].
    rewrite last_child_ok, an_01. symmetry. apply (index_one_plain e true).
  - exists (first_child e && last_child e), s. split; [reflexivity|]. split; [exact OK|].
    rewrite andb_true_iff, first_child_ok, last_child_ok. reflexivity.
  - apply Gen.
  - apply Gen.
  - unfold bind. destruct (generic_ok e 0 1 true false s OK) as (s1 & E1 & OK1). rewrite E1.
    assert (Hit1 : forall f, nth_hit 0 1 (sibling_index e true f) = true <-> sibling_index e true f = 1).
    { intros f. unfold nth_hit, checked_sub, checked_div. cbn [Z.eqb].
      destruct (in_i32 (sibling_index e true f - 1)) eqn:I.
      - rewrite Z.eqb_eq. lia.
      - split; [discriminate|]. intros E. rewrite E in I. discriminate. }
    assert (One : forall f, sibling_index e true f = 1 <->
      forall d, In d (if f then e_nexts e else e_prevs e) -> same_type_data (e_data e) d = false).
    { intros f. rewrite sibling_index_counted.
      pose proof (counted_zero (e_data e) true (if f then e_nexts e else e_prevs e)) as C.
      cbn [negb orb] in C. rewrite <- C. lia. }
    destruct (nth_hit 0 1 (sibling_index e true false)) eqn:H1.
    + destruct (generic_ok e 0 1 true true s1 OK1) as (s2 & E2 & OK2). rewrite E2.
      eexists _, _. split; [reflexivity|]. split; [exact OK2|].
      apply (Hit1 false) in H1. pose proof (proj1 (One false) H1) as H1'. clear H1. rename H1' into H1. rewrite (Hit1 true), (One true). cbn in H1 |- *. split.
      * intros H2 d I. apply in_app_or in I. destruct I as [I|I]; auto.
      * intros A d I. apply A. apply in_or_app. right; exact I.
    + eexists _, _. split; [reflexivity|]. split; [exact OK1|]. split; [discriminate|].
      intros A. exfalso. assert (sibling_index e true false = 1).
      { apply (proj2 (One false)). cbn. intros d I. apply A. apply in_or_app. left; exact I. }
      apply (Hit1 false) in H. congruence.
Qed.

Close Scope Z_scope.

(** * The matcher *)

(** The elements to which a global failure applies: the element, its previous
    siblings, and the same for each of its ancestors. *)
Definition upward (e : elem) (x : elem) : Prop :=
  (x = e \/ In x (prev_list e)) \/
  exists a, In a (anc_list e) /\ (x = a \/ In x (prev_list a)).

Section Matcher.

Variable sem : comp -> elem -> Prop.
Variable sup : comp -> Prop.
Variable n : Z.
Variable simple : comp -> elem -> M bool.

Definition simple_ok (c : comp) : Prop :=
  sup c -> forall e s, cache_ok s -> small n e ->
  exists b s', simple c e s = Some (b, s') /\ cache_ok s' /\ (b = true <-> sem c e).

(** What a status says about an element. *)
Definition says (items : list comp) (e : elem) (r : mres) : Prop :=
  match r with
  | Matched => sem_items sem items e
  | RestartLaterSibling => ~ sem_items sem items e
  | RestartDescendant => forall x, x = e \/ In x (prev_list e) -> ~ sem_items sem items x
  | NotMatchedGlobally => forall x, upward e x -> ~ sem_items sem items x
  end.

Lemma says_not : forall items e r, says items e r -> r <> Matched -> ~ sem_items sem items e.
Proof.
  intros items e [] S NM; cbn in S; try congruence.
  - apply S. left; reflexivity.
  - apply S. left; left; reflexivity.
Qed.

Section Step.
Variable r : list comp.
Variable K : elem -> M mres.
Hypothesis HK : forall e s, cache_ok s -> small n e ->
  exists res s', K e s = Some (res, s') /\ cache_ok s' /\ says r e res.

Lemma next_step : forall e s, cache_ok s -> small n e ->
  exists res s', try_candidates K NextSibling (prev_list e) s = Some (res, s') /\ cache_ok s' /\
    says (CComb NextSibling :: r) e res.
Proof.
  intros e s OK S. rewrite prev_list_unfold.
  destruct (prev_sibling e) as [p|] eqn:E; cbn [try_candidates].
  - destruct (HK p s OK (small_prev _ _ _ S E)) as (res & s' & EK & OK' & Sa). rewrite EK.
    assert (A : after_candidate res NextSibling = Some res) by (destruct res; reflexivity).
    rewrite A. exists res, s'. split; [reflexivity|]. split; [exact OK'|].
    destruct res; cbn [says] in *.
    + cbn [sem_items]. exists p. split; [exact E|exact Sa].
    + cbn [sem_items]. intros [e' [R F]]. cbn [rel] in R. unfold is_prev in R. rewrite E in R.
      injection R as <-. exact (Sa F).
    + intros x Hx [e' [R F]]. cbn [rel] in R. unfold is_prev in R. revert F. apply Sa.
      destruct Hx as [->|I].
      * left. congruence.
      * rewrite prev_list_unfold, E in I. destruct I as [<-|I].
        -- right. rewrite prev_list_unfold, R. left; reflexivity.
        -- right. apply in_prev_trans with x; [exact I|].
           rewrite prev_list_unfold, R. left; reflexivity.
    + intros x Hx [e' [R F]]. cbn [rel] in R. unfold is_prev in R. revert F. apply Sa.
      assert (P : forall y, In y (prev_list e) -> y = p \/ In y (prev_list p)).
      { intros y I. rewrite prev_list_unfold, E in I. destruct I as [<-|I]; auto. }
      assert (I' : In e' (prev_list x)) by (rewrite prev_list_unfold, R; left; reflexivity).
      destruct Hx as [[->|I]|[a [Ia Hx]]].
      * left. apply P. exact I'.
      * left. apply P. apply in_prev_trans with x; assumption.
      * right. exists a. rewrite (prev_anc _ _ E). split; [exact Ia|]. right.
        destruct Hx as [->|I]; [exact I'|apply in_prev_trans with x; assumption].
  - exists (not_found NextSibling), s. split; [reflexivity|]. split; [exact OK|].
    cbn [not_found says]. intros x Hx [e' [R _]]. cbn [rel] in R. unfold is_prev in R.
    destruct Hx as [->|I]; [congruence|]. rewrite prev_list_unfold, E in I. destruct I.
Qed.

(** What the loop over the previous siblings establishes. *)
Lemma later_loop : forall e s, cache_ok s -> small n e ->
  exists res s', try_candidates K LaterSibling (prev_list e) s = Some (res, s') /\ cache_ok s' /\
    match res with
    | Matched => exists x, In x (prev_list e) /\ sem_items sem r x
    | RestartLaterSibling => False
    | RestartDescendant => forall x, In x (prev_list e) -> ~ sem_items sem r x
    | NotMatchedGlobally =>
        (forall x, In x (prev_list e) -> ~ sem_items sem r x) /\
        (forall a x, In a (anc_list e) -> In x (prev_list a) -> ~ sem_items sem r x)
    end.
Proof.
  induction e as [e IH] using prev_ind. intros s OK S. rewrite prev_list_unfold.
  destruct (prev_sibling e) as [p|] eqn:E; cbn [try_candidates].
  2:{ exists RestartDescendant, s. split; [reflexivity|]. split; [exact OK|]. intros x []. }
  pose proof (small_prev _ _ _ S E) as Sp.
  destruct (HK p s OK Sp) as (res & s' & EK & OK' & Sa). rewrite EK.
  destruct res; cbn [after_candidate].
  - exists Matched, s'. split; [reflexivity|]. split; [exact OK'|]. exists p. split; [left; reflexivity|exact Sa].
  - destruct (IH p eq_refl s' OK' Sp) as (res2 & s2 & E2 & OK2 & Sa2).
    exists res2, s2. split; [exact E2|]. split; [exact OK2|].
    cbn [says] in Sa. destruct res2.
    + destruct Sa2 as [x [I F]]. exists x. split; [right; exact I|exact F].
    + exact Sa2.
    + intros x [<-|I]; [exact Sa|apply Sa2; exact I].
    + destruct Sa2 as [A B]. rewrite <- (prev_anc _ _ E). split; [|exact B].
      intros x [<-|I]; [exact Sa|apply A; exact I].
  - exists RestartDescendant, s'. split; [reflexivity|]. split; [exact OK'|].
    cbn [says] in Sa. intros x [<-|I]; apply Sa; [left; reflexivity|right; exact I].
  - exists NotMatchedGlobally, s'. split; [reflexivity|]. split; [exact OK'|].
    cbn [says] in Sa. split.
    + intros x [<-|I]; apply Sa; left; [left; reflexivity|right; exact I].
    + intros a x Ia Ix. apply Sa. right. exists a. rewrite (prev_anc _ _ E). split; [exact Ia|right; exact Ix].
Qed.

Lemma later_step : forall e s, cache_ok s -> small n e ->
  exists res s', try_candidates K LaterSibling (prev_list e) s = Some (res, s') /\ cache_ok s' /\
    says (CComb LaterSibling :: r) e res.
Proof.
  intros e s OK S. destruct (later_loop e s OK S) as (res & s' & E & OK' & C).
  exists res, s'. split; [exact E|]. split; [exact OK'|].
  destruct res; cbn [says].
  - destruct C as [x [I F]]. cbn [sem_items]. exists x. split; [|exact F]. cbn [rel]. apply later_in. exact I.
  - destruct C.
  - intros x Hx [e' [R F]]. cbn [rel] in R. apply later_in in R. revert F. apply C.
    destruct Hx as [->|I]; [exact R|apply in_prev_trans with x; assumption].
  - destruct C as [A B]. intros x Hx [e' [R F]]. cbn [rel] in R. apply later_in in R. revert F.
    destruct Hx as [[->|I]|[a [Ia [->|I]]]].
    + apply A. exact R.
    + apply A. apply in_prev_trans with x; assumption.
    + apply (B a); assumption.
    + apply (B a); [assumption|]. apply in_prev_trans with x; assumption.
Qed.

Lemma upward_anc : forall e x y, upward e x -> In y (anc_list x) -> In y (anc_list e).
Proof.
  intros e x y [[->|I]|[a [Ia [->|I]]]] J.
  - exact J.
  - rewrite <- (in_prev_anc _ _ I). exact J.
  - eapply in_anc_trans; eassumption.
  - rewrite (in_prev_anc _ _ I) in J. eapply in_anc_trans; eassumption.
Qed.

Lemma upward_parent : forall e x p, upward e x -> parent_element x = Some p ->
  exists q, parent_element e = Some q /\ (p = q \/ In p (anc_list q)).
Proof.
  intros e x p U E.
  assert (I : In p (anc_list e)).
  { eapply upward_anc; [exact U|]. rewrite anc_list_unfold, E. left; reflexivity. }
  rewrite anc_list_unfold in I. destruct (parent_element e) as [q|]; [|destruct I].
  exists q. split; [reflexivity|]. destruct I as [->|I]; auto.
Qed.

Lemma child_step : forall e s, cache_ok s -> small n e ->
  exists res s', try_candidates K Child (anc_list e) s = Some (res, s') /\ cache_ok s' /\
    says (CComb Child :: r) e res.
Proof.
  intros e s OK S. rewrite anc_list_unfold.
  destruct (parent_element e) as [p|] eqn:E; cbn [try_candidates].
  - destruct (HK p s OK (small_parent _ _ _ S E)) as (res & s' & EK & OK' & Sa). rewrite EK.
    assert (NM : res <> Matched -> forall x, x = e \/ In x (prev_list e) ->
              ~ sem_items sem (CComb Child :: r) x).
    { intros NM x Hx [e' [R F]]. cbn [rel] in R. unfold is_parent in R.
      assert (parent_element x = parent_element e) by (destruct Hx as [->|I]; [reflexivity|apply in_prev_parent; exact I]).
      assert (e' = p) by congruence. subst e'. exact (says_not _ _ _ Sa NM F). }
    destruct res; cbn [after_candidate];
      (eexists _, s'; split; [reflexivity|]; split; [exact OK'|]); cbn [says] in *.
    + exists p. split; [exact E|exact Sa].
    + apply NM. discriminate.
    + apply NM. discriminate.
    + intros x Hx [e' [R F]]. cbn [rel] in R. unfold is_parent in R. revert F. apply Sa.
      destruct (upward_parent _ _ _ Hx R) as (q & Eq & H). rewrite E in Eq. injection Eq as <-.
      destruct H as [->|I]; [left; left; reflexivity|]. right. exists e'. split; [exact I|left; reflexivity].
  - exists NotMatchedGlobally, s. split; [reflexivity|]. split; [exact OK|].
    cbn [says]. intros x Hx [e' [R _]]. cbn [rel] in R. unfold is_parent in R.
    destruct (upward_parent _ _ _ Hx R) as (q & Eq & _). congruence.
Qed.

Definition desc_comb (k : comb) : Prop := k = Descendant \/ k = Deep \/ k = DeepDescendant.

Lemma desc_loop : forall k, desc_comb k -> forall e s, cache_ok s -> small n e ->
  exists res s', try_candidates K k (anc_list e) s = Some (res, s') /\ cache_ok s' /\
    match res with
    | Matched => exists x, In x (anc_list e) /\ sem_items sem r x
    | NotMatchedGlobally => forall x, In x (anc_list e) -> ~ sem_items sem r x
    | _ => False
    end.
Proof.
  intros k Hk. induction e as [e IH] using anc_ind. intros s OK S. rewrite anc_list_unfold.
  destruct (parent_element e) as [p|] eqn:E; cbn [try_candidates].
  2:{ exists NotMatchedGlobally, s. split.
      { destruct Hk as [->|[->| ->]]; reflexivity. } split; [exact OK|]. intros x []. }
  pose proof (small_parent _ _ _ S E) as Sp.
  destruct (HK p s OK Sp) as (res & s' & EK & OK' & Sa). rewrite EK.
  assert (Go : after_candidate res k = None -> ~ sem_items sem r p ->
    exists res0 s0, try_candidates K k (anc_list p) s' = Some (res0, s0) /\ cache_ok s0 /\
    match res0 with
    | Matched => exists x, In x (p :: anc_list p) /\ sem_items sem r x
    | NotMatchedGlobally => forall x, In x (p :: anc_list p) -> ~ sem_items sem r x
    | _ => False
    end).
  { intros _ NM. destruct (IH p eq_refl s' OK' Sp) as (res2 & s2 & E2 & OK2 & Sa2).
    exists res2, s2. split; [exact E2|]. split; [exact OK2|]. destruct res2; try exact Sa2.
    - destruct Sa2 as [x [I F]]. exists x. split; [right; exact I|exact F].
    - intros x [<-|I]; [exact NM|apply Sa2; exact I]. }
  destruct res.
  - exists Matched, s'. split; [destruct Hk as [->|[->| ->]]; reflexivity|]. split; [exact OK'|].
    exists p. split; [left; reflexivity|exact Sa].
  - assert (A : after_candidate RestartLaterSibling k = None) by (destruct Hk as [->|[->| ->]]; reflexivity).
    rewrite A. apply Go; [exact A|exact Sa].
  - assert (A : after_candidate RestartDescendant k = None) by (destruct Hk as [->|[->| ->]]; reflexivity).
    rewrite A. apply Go; [exact A|]. apply Sa. left; reflexivity.
  - exists NotMatchedGlobally, s'. split; [destruct Hk as [->|[->| ->]]; reflexivity|]. split; [exact OK'|].
    cbn [says] in Sa. intros x [<-|I]; apply Sa.
    + left; left; reflexivity.
    + right. exists x. split; [exact I|left; reflexivity].
Qed.

Lemma desc_rel : forall k, desc_comb k -> forall x y, rel k x y <-> In x (anc_list y).
Proof. intros k [->|[->| ->]] x y; cbn [rel]; apply desc_in. Qed.

Lemma desc_step : forall k, desc_comb k -> forall e s, cache_ok s -> small n e ->
  exists res s', try_candidates K k (anc_list e) s = Some (res, s') /\ cache_ok s' /\
    says (CComb k :: r) e res.
Proof.
  intros k Hk e s OK S. destruct (desc_loop k Hk e s OK S) as (res & s' & E & OK' & C).
  exists res, s'. split; [exact E|]. split; [exact OK'|]. destruct res; cbn [says]; try destruct C.
  - destruct H as [I F]. exists x. split; [apply desc_rel; assumption|exact F].
  - intros x Hx [e' [R F]]. apply (desc_rel k Hk) in R. revert F. apply C.
    eapply upward_anc; eassumption.
Qed.

End Step.

Definition not_comb (c : comp) : Prop := is_comb c = false.

Lemma match_items_ok : forall items,
  Forall simple_ok items -> sup_items sup items ->
  (forall ok e s, cache_ok s -> small n e ->
    exists res s', match_items simple items ok e s = Some (res, s') /\ cache_ok s' /\
      if ok then says items e res else res = RestartLaterSibling).
Proof.
  induction items as [|c r IH]; intros HS Sup ok e s OK S.
  - exists (if ok then Matched else RestartLaterSibling), s. split; [reflexivity|]. split; [exact OK|].
    destruct ok; [exact I|reflexivity].
  - inversion HS as [|? ? Hc Hr]; subst.
    destruct (is_comb c) eqn:IC.
    + destruct c as [k| | | | | | | | | | | | | | | | | | | | |]; try discriminate.
      cbn [sup_items] in Sup. destruct Sup as [Tk Sr]. cbn [match_items].
      destruct ok; [|exists RestartLaterSibling, s; auto].
      pose proof (fun e s => IH Hr Sr true e s) as HK. cbn beta iota in HK.
      destruct k; try discriminate; cbn [candidates].
      * apply child_step; assumption.
      * apply desc_step; [assumption|left; reflexivity|assumption|assumption].
      * apply next_step; assumption.
      * apply later_step; assumption.
      * apply desc_step; [assumption|right; right; reflexivity|assumption|assumption].
      * apply desc_step; [assumption|right; left; reflexivity|assumption|assumption].
    + assert (Sup' : sup c /\ sup_items sup r) by (destruct c; try discriminate; exact Sup).
      destruct Sup' as [Sc Sr].
      assert (U : match_items simple (c :: r) ok e s =
        if ok then match simple c e s with None => None | Some (b, s') => match_items simple r b e s' end
        else match_items simple r false e s) by (destruct c; try discriminate; reflexivity).
      rewrite U. clear U.
      assert (SI : forall x, sem_items sem (c :: r) x <-> sem c x /\ sem_items sem r x)
        by (intros x; destruct c; try discriminate; reflexivity).
      destruct ok.
      * destruct (Hc Sc e s OK S) as (b & s1 & Es & OK1 & Hb). rewrite Es.
        destruct (IH Hr Sr b e s1 OK1 S) as (res & s2 & E2 & OK2 & Sa).
        exists res, s2. split; [exact E2|]. split; [exact OK2|].
        destruct b.
        -- destruct res; cbn [says] in *.
           ++ apply SI. split; [apply Hb; reflexivity|exact Sa].
           ++ rewrite SI. tauto.
           ++ intros x Hx F. apply SI in F. exact (Sa x Hx (proj2 F)).
           ++ intros x Hx F. apply SI in F. exact (Sa x Hx (proj2 F)).
        -- subst res. cbn [says]. rewrite SI. intros [F _]. apply Hb in F. discriminate.
      * apply (IH Hr Sr false e s OK S).
Qed.

Lemma match_complex_ok : forall items,
  Forall simple_ok items -> sup_items sup items ->
  forall e s, cache_ok s -> small n e ->
    exists b s', match_complex simple items e s = Some (b, s') /\ cache_ok s' /\
      (b = true <-> sem_items sem items e).
Proof.
  intros items HS Sup e s OK S.
  destruct (match_items_ok items HS Sup true e s OK S) as (res & s' & E & OK' & Sa).
  unfold match_complex, bind. rewrite E. eexists _, s'. split; [reflexivity|]. split; [exact OK'|].
  destruct res.
  - split; auto.
  - split; [discriminate|]. intros F. exfalso. revert F. apply (says_not _ _ _ Sa). discriminate.
  - split; [discriminate|]. intros F. exfalso. revert F. apply (says_not _ _ _ Sa). discriminate.
  - split; [discriminate|]. intros F. exfalso. revert F. apply (says_not _ _ _ Sa). discriminate.
Qed.

Lemma match_any_ok : forall l,
  Forall (fun s : sel => Forall simple_ok (snd s)) l -> sup_list sup l ->
  forall e s, cache_ok s -> small n e ->
    exists b s', match_any simple l e s = Some (b, s') /\ cache_ok s' /\
      (b = true <-> sem_any sem l e).
Proof.
  induction l as [|[sp items] r IH]; intros HS Sup e s OK S.
  - exists false, s. split; [reflexivity|]. split; [exact OK|]. split; [discriminate|intros []].
  - inversion HS as [|? ? Hc Hr]; subst. cbn [sup_list] in Sup. destruct Sup as [Si Sr].
    cbn [snd] in Hc. cbn [match_any]. unfold bind at 1.
    destruct (match_complex_ok items Hc Si e s OK S) as (b & s1 & E1 & OK1 & Hb). rewrite E1.
    cbn [sem_any]. destruct b.
    + exists true, s1. split; [reflexivity|]. split; [exact OK1|]. split; [|reflexivity].
      intros _. left. apply Hb. reflexivity.
    + destruct (IH Hr Sr e s1 OK1 S) as (b2 & s2 & E2 & OK2 & Hb2).
      exists b2, s2. split; [exact E2|]. split; [exact OK2|]. rewrite Hb2. split; [tauto|].
      intros [F|F]; [|exact F]. apply Hb in F. discriminate.
Qed.

End Matcher.

Lemma existsb_In : forall (P : string -> bool) l,
  existsb P l = true <-> exists x, In x l /\ P x = true.
Proof. intros. apply existsb_exists. Qed.

Lemma root_ok : forall e, is_root e = true <-> parent_element e = None.
Proof. intros e. unfold is_root. destruct (parent_element e); split; congruence. Qed.

Theorem match_simple_ok : forall cx n c,
  simple_ok (sem_comp cx) (supported n) n (match_simple cx) c.
Proof.
  intros cx n. induction c as [c IH] using comp_ind'. intros Sup e s OK S.
  assert (Leaf : forall b, match_simple cx c e s = Some (b, s) -> (b = true <-> sem_comp cx c e) ->
    exists b s', match_simple cx c e s = Some (b, s') /\ cache_ok s' /\ (b = true <-> sem_comp cx c e)).
  { intros b E H. exists b, s. auto. }
  destruct c; cbn [supported] in Sup; try contradiction; cbn [subs] in IH.
  - apply (Leaf true eq_refl). cbn. tauto.
  - apply (Leaf _ eq_refl). cbn. apply String.eqb_eq.
  - apply (Leaf _ eq_refl). cbn. apply String.eqb_eq.
  - apply (Leaf _ eq_refl). cbn. apply String.eqb_eq.
  - apply (Leaf _ eq_refl). cbn. unfold has_id. destruct (n_id (e_data e)) as [i|].
    + rewrite name_eq_ok. split; [intros H; exists i; auto|]. intros [j [E H]]. congruence.
    + split; [discriminate|]. intros [j [E H]]. discriminate.
  - apply (Leaf _ eq_refl). cbn. unfold has_class. rewrite existsb_exists. split; intros [x [I H]]; exists x;
      (split; [exact I|apply name_eq_ok; exact H]).
  - apply (Leaf _ eq_refl). cbn. rewrite existsb_exists. split.
    + intros [x [I E]]. apply PeanoNat.Nat.eqb_eq in E. subst. exact I.
    + intros I. exists k. split; [exact I|apply PeanoNat.Nat.eqb_refl].
  - apply (Leaf _ eq_refl). cbn. apply root_ok.
  - apply (Leaf _ eq_refl). cbn. tauto.
  - apply (Leaf _ eq_refl). cbn. destruct (c_scope cx); [apply elem_eqb_eq|apply root_ok].
  - cbn [match_simple sem_comp]. apply match_nth_ok with n; assumption.
  - destruct (match_any_ok _ _ _ _ l IH Sup e s OK S) as (b & s' & E & OK' & Hb).
    exists (negb b), s'. split; [|split; [exact OK'|]].
    + cbn [match_simple]. unfold bind. rewrite E. reflexivity.
    + cbn [sem_comp]. rewrite negb_true_iff. destruct b.
      * split; [discriminate|]. intros F. exfalso. apply F. apply Hb. reflexivity.
      * split; [intros _ F; apply Hb in F; discriminate|reflexivity].
  - apply (match_any_ok _ _ _ _ l IH Sup e s OK S).
  - apply (match_any_ok _ _ _ _ l IH Sup e s OK S).
  - apply (match_any_ok _ _ _ _ l IH Sup e s OK S).
Qed.

Lemma all_simple_ok : forall cx n items,
  Forall (simple_ok (sem_comp cx) (supported n) n (match_simple cx)) items.
Proof. intros. apply Forall_forall. intros. apply match_simple_ok. Qed.

Theorem match_selector_ok : forall cx n items e s,
  sup_items (supported n) items -> cache_ok s -> small n e ->
  exists b s', match_complex (match_simple cx) items e s = Some (b, s') /\ cache_ok s' /\
    (b = true <-> sem_items (sem_comp cx) items e).
Proof.
  intros cx n items e s Sup OK S.
  eapply match_complex_ok; try eassumption. apply all_simple_ok.
Qed.

Theorem match_list_ok : forall cx n l e s,
  sup_list (supported n) l -> cache_ok s -> small n e ->
  exists b s', matches_selector_list cx l e s = Some (b, s') /\ cache_ok s' /\
    (b = true <-> sem_any (sem_comp cx) l e).
Proof.
  intros cx n l e s Sup OK S. unfold matches_selector_list.
  eapply match_any_ok; try eassumption. apply Forall_forall. intros. apply all_simple_ok.
Qed.

(** * Histories of one context *)

(** A match that does not panic keeps the cache right, whatever the selector. *)
Definition keeps (A : Type) (m : M A) : Prop :=
  forall s a s', cache_ok s -> m s = Some (a, s') -> cache_ok s'.

Lemma keeps_ret : forall A (a : A), keeps A (ret a).
Proof. intros A a s b s' OK E. injection E as _ <-. exact OK. Qed.

Lemma keeps_bind : forall A B (m : M A) (f : A -> M B),
  keeps A m -> (forall a, keeps B (f a)) -> keeps B (bind m f).
Proof.
  intros A B m f Hm Hf s b s' OK. unfold bind. destruct (m s) as [[a s1]|] eqn:E; [|discriminate].
  intros E2. exact (Hf a _ _ _ (Hm _ _ _ OK E) E2).
Qed.

Lemma keeps_none : forall A, keeps A (fun _ => None).
Proof. intros A s a s' _ E. discriminate. Qed.

Lemma keeps_generic : forall e a b t f, keeps bool (generic_nth e a b t f).
Proof.
  intros e a b t f s r s' OK E. destruct (generic_ok e a b t f s OK) as (s1 & E1 & OK1).
  rewrite E1 in E. injection E as _ <-. exact OK1.
Qed.

Lemma keeps_nth : forall ty a b e, keeps bool (match_nth ty a b e).
Proof.
  intros ty a b e. destruct ty; cbn [match_nth];
    try apply keeps_generic; try apply keeps_ret; try apply keeps_none.
  - destruct ((a =? 0)%Z && (b =? 1)%Z); [apply keeps_ret|apply keeps_generic].
  - destruct ((a =? 0)%Z && (b =? 1)%Z); [apply keeps_ret|apply keeps_generic].
  - apply keeps_bind; [apply keeps_generic|]. intros []; [apply keeps_generic|apply keeps_ret].
Qed.

Lemma keeps_try : forall K k, (forall e, keeps mres (K e)) ->
  forall cands, keeps mres (try_candidates K k cands).
Proof.
  intros K k HK. induction cands as [|x r IH]; intros s a s' OK; cbn [try_candidates].
  - intros E. injection E as _ <-. exact OK.
  - destruct (K x s) as [[res s1]|] eqn:EK; [|discriminate].
    pose proof (HK x _ _ _ OK EK) as OK1. destruct (after_candidate res k).
    + intros E. injection E as _ <-. exact OK1.
    + apply IH. exact OK1.
Qed.

Lemma keeps_items : forall simple items, Forall (fun c => forall e, keeps bool (simple c e)) items ->
  forall ok e, keeps mres (match_items simple items ok e).
Proof.
  intros simple. induction items as [|c r IH]; intros HS ok e s a s' OK.
  - cbn. intros E. injection E as _ <-. exact OK.
  - inversion HS as [|? ? Hc Hr]; subst. specialize (IH Hr).
    destruct (is_comb c) eqn:IC.
    + destruct c; try discriminate. cbn [match_items]. destruct ok.
      * destruct (candidates k e) as [cands|]; [|discriminate].
        apply (keeps_try _ k (fun x => IH true x) cands). exact OK.
      * intros E. injection E as _ <-. exact OK.
    + assert (U : match_items simple (c :: r) ok e s =
        if ok then match simple c e s with None => None | Some (b, s') => match_items simple r b e s' end
        else match_items simple r false e s) by (destruct c; try discriminate; reflexivity).
      rewrite U. destruct ok.
      * destruct (simple c e s) as [[b s1]|] eqn:E1; [|discriminate].
        apply IH. exact (Hc _ _ _ _ OK E1).
      * apply IH. exact OK.
Qed.

Lemma keeps_complex : forall simple items, Forall (fun c => forall e, keeps bool (simple c e)) items ->
  forall e, keeps bool (match_complex simple items e).
Proof.
  intros simple items HS e. apply keeps_bind; [apply keeps_items; exact HS|]. intros a. apply keeps_ret.
Qed.

Lemma keeps_any : forall simple l,
  Forall (fun s : sel => Forall (fun c => forall e, keeps bool (simple c e)) (snd s)) l ->
  forall e, keeps bool (match_any simple l e).
Proof.
  intros simple. induction l as [|[sp items] r IH]; intros HS e; cbn [match_any].
  - apply keeps_ret.
  - inversion HS as [|? ? Hc Hr]; subst. apply keeps_bind; [apply keeps_complex; exact Hc|].
    intros []; [apply keeps_ret|apply IH; exact Hr].
Qed.

Lemma keeps_simple : forall cx c e, keeps bool (match_simple cx c e).
Proof.
  intros cx. induction c as [c IH] using comp_ind'. intros e.
  destruct c; cbn [match_simple]; cbn [subs] in IH;
    try apply keeps_ret; try apply keeps_none; try apply keeps_nth;
    try (apply keeps_any; exact IH).
  apply keeps_bind; [apply keeps_any; exact IH|]. intros b. apply keeps_ret.
Qed.

Lemma keeps_selector : forall cx x h f e, keeps bool (matches_selector cx x h f e).
Proof.
  intros cx x h f e.
  assert (K : keeps bool (match_complex (match_simple cx) (snd x) e)).
  { apply keeps_complex. apply Forall_forall. intros c _ e'. apply keeps_simple. }
  unfold matches_selector. destruct h as [h|]; [|exact K]. destruct f as [f|]; [|exact K].
  destruct (may_match h f); [exact K|apply keeps_ret].
Qed.

Lemma run_queries_ok : forall cx l s s', cache_ok s -> run_queries cx l s = Some s' -> cache_ok s'.
Proof.
  intros cx. induction l as [|[[[x h] f] e] r IH]; intros s s' OK; cbn [run_queries].
  - intros E. injection E as <-. exact OK.
  - destruct (matches_selector cx x h f e s) as [[b s1]|] eqn:E; [|discriminate].
    apply IH. exact (keeps_selector _ _ _ _ _ _ _ _ OK E).
Qed.

Lemma empty_cache_ok : cache_ok (Some ncache_empty).
Proof. intros [] [] e i E; discriminate. Qed.
