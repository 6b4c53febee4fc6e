(** * Reading a math function keeps its value *)
From Coq Require Import List Bool ZArith QArith Qround Qabs Qminmax Lqa Lia Setoid.
From Verif Require Import CalcModel CalcSpec CalcArithProofs.
Import ListNotations.
Local Open Scope Q_scope.

(** ** Induction over trees and expressions *)
Section Induction.
Context {L : Type}.
Lemma calc_induction : forall (P : calc L -> Prop),
  (forall l, P (CVal l)) -> (forall q, P (CNum q)) -> (forall a b, P a -> P b -> P (CSum a b)) ->
  (forall n c, P c -> P (CProd n c)) -> (forall c, P c -> P (FCalc c)) ->
  (forall cs, Forall P cs -> P (FMin cs)) -> (forall cs, Forall P cs -> P (FMax cs)) ->
  (forall a b c, P a -> P b -> P c -> P (FClamp a b c)) ->
  (forall s a b, P a -> P b -> P (FRound s a b)) -> (forall a b, P a -> P b -> P (FRem a b)) ->
  (forall a b, P a -> P b -> P (FMod a b)) -> (forall c, P c -> P (FAbs c)) -> (forall c, P c -> P (FSign c)) ->
  (forall cs, Forall P cs -> P (FHypot cs)) -> forall c, P c.
Proof.
  intros P H1 H2 H3 H4 H5 H6 H7 H8 H9 H10 H11 H12 H13 H14. fix IH 1. intros c.
  destruct c; [apply H1 | apply H2 | apply H3; apply IH | apply H4; apply IH | apply H5; apply IH | apply H6 | apply H7
    | apply H8; apply IH | apply H9; apply IH | apply H10; apply IH | apply H11; apply IH | apply H12; apply IH
    | apply H13; apply IH | apply H14]; induction cs; constructor; solve [apply IH | assumption].
Qed.
Lemma expr_induction : forall (P : expr L -> Prop),
  (forall l, P (EVal l)) -> (forall q, P (ENum q)) -> (forall a b, P a -> P b -> P (EAdd a b)) ->
  (forall a b, P a -> P b -> P (ESub a b)) -> (forall a b, P a -> P b -> P (EMul a b)) ->
  (forall a b, P a -> P b -> P (EDiv a b)) -> (forall e, P e -> P (ECalc e)) ->
  (forall es, Forall P es -> P (EMin es)) -> (forall es, Forall P es -> P (EMax es)) ->
  (forall a b c, P a -> P b -> P c -> P (EClamp a b c)) ->
  (forall s a b, P a -> P b -> P (ERound s a b)) -> (forall a b, P a -> P b -> P (ERem a b)) ->
  (forall a b, P a -> P b -> P (EMod a b)) -> (forall e, P e -> P (EAbs e)) -> (forall e, P e -> P (ESign e)) ->
  (forall es, Forall P es -> P (EHypot es)) -> forall e, P e.
Proof.
  intros P H1 H2 H3 H4 H5 H6 H7 H8 H9 H10 H11 H12 H13 H14 H15 H16. fix IH 1. intros e.
  destruct e; [apply H1 | apply H2 | apply H3; apply IH | apply H4; apply IH | apply H5; apply IH | apply H6; apply IH
    | apply H7; apply IH | apply H8 | apply H9 | apply H10; apply IH | apply H11; apply IH | apply H12; apply IH
    | apply H13; apply IH | apply H14; apply IH | apply H15; apply IH | apply H16]; induction es; constructor; solve [apply IH | assumption].
Qed.
End Induction.

Lemma bind_ok : forall {A B : Type} (o : out A) (f : A -> out B) b, bind o f = Ok b -> exists a, o = Ok a /\ f a = Ok b.
Proof. intros A B [a | |] f b H; try discriminate. exists a. split; [reflexivity | exact H]. Qed.
Lemma all_ok_forall2 : forall {A B : Type} (f : A -> out B) l bs, all_ok f l = Ok bs -> Forall2 (fun a b => f a = Ok b) l bs.
Proof.
  intros A B f. induction l as [|a l IH]; intros bs H; cbn [all_ok] in H.
  - injection H as <-. constructor.
  - apply bind_ok in H. destruct H as (b & E & H). apply bind_ok in H. destruct H as (bs' & F & H). injection H as <-.
    constructor; [exact E | apply IH; exact F].
Qed.
Lemma kind_eqb_eq : forall a b, kind_eqb a b = true <-> a = b.
Proof. intros [|] [|]; split; intros H; try reflexivity; discriminate. Qed.

(** ** Values up to the way a fraction is written *)
Definition is (v : option value) (k : kind) (x : Q) : Prop := exists q, v = Some (k, q) /\ q == x.
Lemma is_intro : forall k q x, q == x -> is (Some (k, q)) k x.
Proof. intros k q x E. exists q. split; [reflexivity | exact E]. Qed.
Lemma is_eq : forall v k x y, is v k x -> x == y -> is v k y.
Proof. intros v k x y (q & E & F) G. exists q. split; [exact E | rewrite F; exact G]. Qed.
Lemma is_fun : forall v k x k' y, is v k x -> is v k' y -> k = k' /\ x == y.
Proof. intros v k x k' y (q & E & F) (q' & E' & F'). rewrite E in E'. injection E' as <- <-. split; [reflexivity | rewrite <- F; exact F']. Qed.
Lemma two_is : forall f a b k x y,
  (forall p q p' q', p == p' -> q == q' -> f p q == f p' q') ->
  is a k x -> is b k y -> is (on_two f a b) k (f x y).
Proof.
  intros f a b k x y C (p & -> & E) (q & -> & F). cbn [on_two]. rewrite (proj2 (kind_eqb_eq k k) eq_refl).
  apply is_intro. apply C; assumption.
Qed.
Lemma two_inv : forall f a b k z, is (on_two f a b) k z -> exists x y, is a k x /\ is b k y /\ z == f x y.
Proof.
  intros f [[k1 x]|] [[k2 y]|] k z (q & E & F); cbn [on_two] in E; try discriminate.
  destruct (kind_eqb k1 k2) eqn:K; [|discriminate]. apply kind_eqb_eq in K. subst k2. injection E as <- <-.
  exists x, y. split; [apply is_intro; reflexivity|]. split; [apply is_intro; reflexivity|]. symmetry. exact F.
Qed.
Lemma one_is : forall f a k x, (forall p p', p == p' -> f p == f p') -> is a k x -> is (on_one f a) k (f x).
Proof. intros f a k x C (p & -> & E). apply is_intro. apply C; exact E. Qed.
Lemma one_inv : forall f a k z, is (on_one f a) k z -> exists x, is a k x /\ z == f x.
Proof.
  intros f [[k1 x]|] k z (q & E & F); cbn [on_one] in E; try discriminate. injection E as <- <-.
  exists x. split; [apply is_intro; reflexivity | symmetry; exact F].
Qed.
Lemma plus_comp : forall p q p' q' : Q, p == p' -> q == q' -> p + q == p' + q'.
Proof. intros p q p' q' -> ->. reflexivity. Qed.
Lemma nonzero_is : forall a k x, is a k x -> ~ x == 0 -> is (nonzero a) k x.
Proof.
  intros a k x (p & -> & E) N. cbn [nonzero]. destruct (Qeq_bool p 0) eqn:Z.
  - apply Qeq_bool_iff in Z. rewrite E in Z. contradiction.
  - apply is_intro. exact E.
Qed.
Lemma nonzero_inv : forall a k x, is (nonzero a) k x -> is a k x /\ ~ x == 0.
Proof.
  intros [[k1 p]|] k x (q & E & F); cbn [nonzero] in E; [|discriminate].
  destruct (Qeq_bool p 0) eqn:Z; [discriminate|]. injection E as <- <-. split; [apply is_intro; exact F|].
  intros X. rewrite X in F. apply Qeq_bool_iff in F. congruence.
Qed.

(** ** Lists of arguments *)
Lemma agree_is : forall vs k qs, vs <> [] -> Forall2 (fun v q => is v k q) vs qs ->
  exists qs', agree vs = Some (k, qs') /\ Forall2 Qeq qs' qs.
Proof.
  intros vs k qs N H. induction H as [|v q vs qs (p & -> & E) H IH]; [contradiction|].
  destruct vs as [|w vs].
  - inversion H; subst. exists [p]. split; [reflexivity | constructor; [exact E | constructor]].
  - destruct IH as (qs' & A & F); [discriminate|]. exists (p :: qs'). split; [|constructor; assumption].
    change (agree (Some (k, p) :: w :: vs)) with
      (match agree (w :: vs) with Some (k', qs) => if kind_eqb k k' then Some (k, p :: qs) else None | None => None end).
    rewrite A. rewrite (proj2 (kind_eqb_eq k k) eq_refl). reflexivity.
Qed.
Lemma agree_inv : forall vs k qs, agree vs = Some (k, qs) -> vs <> [] /\ Forall2 (fun v q => is v k q) vs qs.
Proof.
  induction vs as [|v vs IH]; intros k qs H; [discriminate|]. split; [discriminate|].
  destruct v as [[k1 q]|]; [|destruct vs; discriminate]. destruct vs as [|w vs].
  - cbn in H. injection H as <- <-. constructor; [apply is_intro; reflexivity | constructor].
  - change (agree (Some (k1, q) :: w :: vs)) with
      (match agree (w :: vs) with Some (k', qs) => if kind_eqb k1 k' then Some (k1, q :: qs) else None | None => None end) in H.
    destruct (agree (w :: vs)) as [[k2 qs2]|] eqn:A; [|discriminate]. destruct (kind_eqb k1 k2) eqn:K; [|discriminate].
    apply kind_eqb_eq in K. subst k2. injection H as <- <-. constructor; [apply is_intro; reflexivity | apply IH; reflexivity].
Qed.
Definition list_comp (f : Q -> list Q -> Q) : Prop :=
  forall q qs q' qs', q == q' -> Forall2 Qeq qs qs' -> f q qs == f q' qs'.
Lemma list_is : forall f vs k q qs, list_comp f -> Forall2 (fun v q => is v k q) vs (q :: qs) -> is (on_list f vs) k (f q qs).
Proof.
  intros f vs k q qs C H. destruct (agree_is vs k (q :: qs)) as (qs' & A & F).
  - intros ->. inversion H.
  - exact H.
  - inversion F as [|q' ? qs'' ? E F']; subst. unfold on_list. rewrite A. apply is_intro. apply C; assumption.
Qed.
Lemma list_inv : forall f vs k z, is (on_list f vs) k z ->
  exists q qs, Forall2 (fun v q => is v k q) vs (q :: qs) /\ z == f q qs.
Proof.
  intros f vs k z (p & E & F). unfold on_list in E. destruct (agree vs) as [[k1 [|q qs]]|] eqn:A; try discriminate.
  injection E as <- <-. exists q, qs. split; [apply agree_inv; exact A | symmetry; exact F].
Qed.
Lemma three_is : forall f a b c k x y z,
  (forall p q r p' q' r', p == p' -> q == q' -> r == r' -> f p q r == f p' q' r') ->
  is a k x -> is b k y -> is c k z -> is (on_three f a b c) k (f x y z).
Proof.
  intros f a b c k x y z C A B D. destruct (agree_is [a; b; c] k [x; y; z]) as (qs & E & F).
  - discriminate.
  - repeat constructor; assumption.
  - inversion F as [|? ? ? ? E1 F1]; subst. inversion F1 as [|? ? ? ? E2 F2]; subst. inversion F2 as [|? ? ? ? E3 F3]; subst.
    inversion F3; subst. unfold on_three. rewrite E. apply is_intro. apply C; assumption.
Qed.
Lemma three_inv : forall f a b c k w, is (on_three f a b c) k w ->
  exists x y z, is a k x /\ is b k y /\ is c k z /\ w == f x y z.
Proof.
  intros f a b c k w (p & E & F). unfold on_three in E. destruct (agree [a; b; c]) as [[k1 qs]|] eqn:A; [|discriminate].
  apply agree_inv in A. destruct A as [_ A]. inversion A as [|? x ? ? A1 B1]; subst. inversion B1 as [|? y ? ? A2 B2]; subst.
  inversion B2 as [|? z ? ? A3 B3]; subst. inversion B3; subst. injection E as <- <-.
  exists x, y, z. split; [exact A1|]. split; [exact A2|]. split; [exact A3|]. symmetry. exact F.
Qed.
Lemma clamp_comp : forall p q r p' q' r', p == p' -> q == q' -> r == r' -> css_clamp p q r == css_clamp p' q' r'.
Proof. intros p q r p' q' r' A B C. unfold css_clamp. rewrite A, B, C. reflexivity. Qed.
Lemma least_comp : list_comp least.
Proof.
  intros q qs q' qs' E F. unfold least. revert q q' E. induction F as [|x y xs ys X F IH]; intros q q' E; [exact E|].
  cbn [fold_left]. apply IH. rewrite E, X. reflexivity.
Qed.
Lemma greatest_comp : list_comp greatest.
Proof.
  intros q qs q' qs' E F. unfold greatest. revert q q' E. induction F as [|x y xs ys X F IH]; intros q q' E; [exact E|].
  cbn [fold_left]. apply IH. rewrite E, X. reflexivity.
Qed.
Lemma squares_comp : forall qs qs', Forall2 Qeq qs qs' -> squares qs == squares qs'.
Proof.
  intros qs qs' F. unfold squares. assert (forall a b : Q, a == b ->
    fold_left (fun s q => s + q * q) qs a == fold_left (fun s q => s + q * q) qs' b) as G; [|apply G; reflexivity].
  induction F as [|x y xs ys X F IH]; intros a b E; [exact E|]. cbn [fold_left]. apply IH. rewrite E, X. reflexivity.
Qed.

(** The least of some numbers has the lower bounds that they have. *)
Definition bound (le : Q -> Q -> Prop) (z : Q) (qs : list Q) : Prop := Forall (le z) qs.
Lemma least_bound : forall qs q z, z <= least q qs <-> bound Qle z (q :: qs).
Proof.
  unfold least, bound. induction qs as [|p qs IH]; intros q z; cbn [fold_left].
  - split; [intros H; constructor; [exact H | constructor] | intros H; inversion H; assumption].
  - rewrite IH. split; intros H.
    + inversion H as [|? ? H1 H2]; subst. apply Q.min_glb_iff in H1. destruct H1. repeat constructor; assumption.
    + inversion H as [|? ? H1 H2]; subst. inversion H2 as [|? ? H3 H4]; subst. constructor; [|assumption].
      apply Q.min_glb_iff. split; assumption.
Qed.
Lemma greatest_bound : forall qs q z, greatest q qs <= z <-> bound (fun z q => q <= z) z (q :: qs).
Proof.
  unfold greatest, bound. induction qs as [|p qs IH]; intros q z; cbn [fold_left].
  - split; [intros H; constructor; [exact H | constructor] | intros H; inversion H; assumption].
  - rewrite IH. split; intros H.
    + inversion H as [|? ? H1 H2]; subst. apply Q.max_lub_iff in H1. destruct H1. repeat constructor; assumption.
    + inversion H as [|? ? H1 H2]; subst. inversion H2 as [|? ? H3 H4]; subst. constructor; [|assumption].
      apply Q.max_lub_iff. split; assumption.
Qed.
Lemma least_same : forall q qs q' qs', (forall z, bound Qle z (q :: qs) <-> bound Qle z (q' :: qs')) -> least q qs == least q' qs'.
Proof.
  intros q qs q' qs' H. apply Qle_antisym.
  - apply least_bound. apply H. apply least_bound. apply Qle_refl.
  - apply least_bound. apply H. apply least_bound. apply Qle_refl.
Qed.
Lemma greatest_same : forall q qs q' qs',
  (forall z, bound (fun z q => q <= z) z (q :: qs) <-> bound (fun z q => q <= z) z (q' :: qs')) -> greatest q qs == greatest q' qs'.
Proof.
  intros q qs q' qs' H. apply Qle_antisym.
  - apply greatest_bound. apply H. apply greatest_bound. apply Qle_refl.
  - apply greatest_bound. apply H. apply greatest_bound. apply Qle_refl.
Qed.

(** ** What the operations of a type of values have to do *)
Record lawful (T : vtype) (lval : leaf T -> Q) : Prop := Lawful {
  law_mul : forall l k, lval (lmul T l k) == k * lval l;
  law_add : forall a b c, ladd T a b = Some c -> lval c == lval a + lval b;
  law_cmp : forall a b o, lcmp T a b = Some o ->
    match o with Lt => lval a <= lval b | Eq => lval a == lval b | Gt => lval b <= lval a end;
  law_op : forall a b f c, (forall p q p' q', p == p' -> q == q' -> f p q == f p' q') -> lop T a b f = Some c ->
    exists k x y, 0 <= k /\ lval a == k * x /\ lval b == k * y /\ lval c == k * f x y;
  law_map : forall a f c, (forall p q, p == q -> f p == f q) -> lmap T a f = Some c ->
    exists k x, 0 <= k /\ lval a == k * x /\ lval c == k * f x /\ lnum T a == x /\ lnum T c == f x;
  law_zero : forall l, lnum T l == 0 -> lval l == 0 }.

Section Sound.
Context (T : vtype) (lval : leaf T -> Q) (root : Q -> Q) (W : lawful T lval) (R : good_root root).
Notation ev := (ceval lval root).
Notation dv := (dp_eval lval root).

Lemma cmul_is : forall q c k x, is (ev c) k x -> is (ev (cmul T q c)) k (q * x).
Proof.
  intros q c. induction c using calc_induction; intros k x E;
    destruct (Qeq_bool q 1) eqn:Q1;
    try (apply Qeq_bool_iff in Q1; cbn [cmul]; unfold cmul; rewrite ?(proj2 (Qeq_bool_iff q 1) Q1);
         refine (is_eq _ _ _ _ E _); rewrite Q1; ring);
    cbn [cmul]; rewrite Q1;
    try (cbn [ceval]; apply (one_is (Qmult q)); [intros p p' X; rewrite X; reflexivity | exact E]).
  - cbn [ceval] in *. destruct E as (p & E & F). injection E as <- <-. apply is_intro. rewrite (law_mul _ _ W), F. reflexivity.
  - cbn [ceval] in *. destruct E as (p & E & F). injection E as <- <-. apply is_intro. rewrite F. ring.
  - cbn [ceval] in *. apply two_inv in E. destruct E as (x1 & x2 & E1 & E2 & F).
    refine (is_eq _ _ _ _ (two_is _ _ _ _ _ _ plus_comp (IHc1 _ _ E1) (IHc2 _ _ E2)) _). rewrite F. ring.
  - cbn [ceval] in E. apply one_inv in E. destruct E as (y & E & F). destruct (Qeq_bool (n * q) 1) eqn:N1.
    + apply Qeq_bool_iff in N1. refine (is_eq _ _ _ _ E _). rewrite F.
      setoid_replace (q * (n * y)) with (n * q * y) by ring. rewrite N1. ring.
    + cbn [ceval]. refine (is_eq _ _ _ _ (one_is (Qmult (n * q)) _ _ _ _ E) _); [intros p p' X; rewrite X; reflexivity|].
      rewrite F. ring.
  - cbn [ceval] in *. apply IHc. exact E.
Qed.

Lemma into_is : forall d k x, is (dv d) k x -> is (ev (into d)) k x.
Proof. intros [l | c] k x H; exact H. Qed.
Lemma zero_is : forall d k x, dp_zero T d = true -> is (dv d) k x -> x == 0 /\ k = KVal.
Proof.
  intros [l | c] k x Z (p & E & F); [|discriminate]. cbn in Z, E. injection E as <- <-. apply Qeq_bool_iff in Z.
  split; [|reflexivity]. rewrite <- F. apply (law_zero _ _ W). exact Z.
Qed.

Lemma add_sound : forall n,
  (forall a b c k x y, cadd T n a b = Ok c -> is (ev a) k x -> is (ev b) k y -> is (ev c) k (x + y)) /\
  (forall a b c k x y, dadd T n a b = Ok c -> is (dv a) k x -> is (dv b) k y -> is (dv c) k (x + y)) /\
  (forall a b c k x y, merge T n a b = Ok (Some c) -> is (dv a) k x -> is (dv b) k y -> is (dv c) k (x + y)) /\
  (forall a b c k x y, plus T n a b = Ok c -> is (dv a) k x -> is (dv b) k y -> is (dv c) k (x + y)).
Proof.
  induction n as [|n (IHc & IHd & IHm & IHp)]; [repeat split; intros; discriminate|].
  assert (forall a b k x y, is (ev a) k x -> is (ev b) k y -> is (ev (CSum a b)) k (x + y)) as SUM
    by (intros a b k x y A B; cbn [ceval]; apply two_is; [exact plus_comp | exact A | exact B]).
  assert (forall k' p k x, is (Some (k', p)) k x -> k' = k /\ p == x) as LIT
    by (intros k' p k x (q & E & F); injection E as <- <-; split; [reflexivity | exact F]).
  split; [|split; [|split]].
  - intros a b c k x y H A B. cbn [cadd] in H. cbv zeta in H.
    assert (forall p q, bind (dadd T n p q) (fun d => Ok (into d)) = Ok c -> is (dv p) k x -> is (dv q) k y -> is (ev c) k (x + y)) as VALUES.
    { intros p q G P Q. apply bind_ok in G. destruct G as (d & G & G'). injection G' as <-. apply into_is.
      apply (IHd _ _ _ _ _ _ G P Q). }
    assert (Ok (CSum a b) = Ok c -> is (ev c) k (x + y)) as PLAIN by (intros G; injection G as <-; apply SUM; assumption).
    destruct a; destruct b; try (apply PLAIN; exact H);
      try (destruct (flexible T); [|discriminate]; refine (VALUES _ _ H _ _); assumption);
      try (refine (VALUES _ _ H _ _); assumption).
    + injection H as <-. cbn [ceval] in A, B. apply LIT in A. apply LIT in B. destruct A as [<- A], B as [_ B].
      apply is_intro. rewrite A, B. reflexivity.
    + (* number + sum *)
      cbn [ceval] in A. apply LIT in A. destruct A as [<- A]. cbn [ceval] in B. apply two_inv in B.
      destruct B as (y1 & y2 & B1 & B2 & F).
      assert (forall p q, is (ev (CSum (CNum (p + q)) b2)) KNum (x + y) -> True) as _ by (intros; exact I).
      assert (Ok (CSum (CNum n0) (CSum b1 b2)) = Ok c -> is (ev c) KNum (x + y)) as D.
      { intros G. injection G as <-. refine (is_eq _ _ _ _ (SUM _ _ _ _ _ (is_intro KNum n0 x A : is (ev (CNum n0)) KNum x) (SUM _ _ _ _ _ B1 B2)) _).
        rewrite F. ring. }
      assert (forall q, b1 = CNum q -> Ok (CSum (CNum (n0 + q)) b2) = Ok c -> is (ev c) KNum (x + y)) as D1.
      { intros q -> G. injection G as <-. cbn [ceval] in B1. apply LIT in B1. destruct B1 as [_ B1].
        refine (is_eq _ _ _ _ (SUM (CNum (n0 + q)) _ _ _ _ (is_intro KNum (n0 + q) _ (Qeq_refl _)) B2) _). rewrite A, B1, F. ring. }
      assert (forall q, b2 = CNum q -> Ok (CSum (CNum (n0 + q)) b1) = Ok c -> is (ev c) KNum (x + y)) as D2.
      { intros q -> G. injection G as <-. cbn [ceval] in B2. apply LIT in B2. destruct B2 as [_ B2].
        refine (is_eq _ _ _ _ (SUM (CNum (n0 + q)) _ _ _ _ (is_intro KNum (n0 + q) _ (Qeq_refl _)) B1) _). rewrite A, B2, F. ring. }
      destruct b1; try (eapply D1; [reflexivity | exact H]); destruct b2; try (eapply D2; [reflexivity | exact H]); apply D; exact H.
    + (* sum + number *)
      cbn [ceval] in B. apply LIT in B. destruct B as [<- B]. cbn [ceval] in A. apply two_inv in A.
      destruct A as (y1 & y2 & A1 & A2 & F).
      assert (Ok (CSum (CSum a1 a2) (CNum n0)) = Ok c -> is (ev c) KNum (x + y)) as D.
      { intros G. injection G as <-. refine (is_eq _ _ _ _ (SUM _ _ _ _ _ (SUM _ _ _ _ _ A1 A2) (is_intro KNum n0 y B : is (ev (CNum n0)) KNum y)) _).
        rewrite F. ring. }
      assert (forall q, a1 = CNum q -> Ok (CSum (CNum (q + n0)) a2) = Ok c -> is (ev c) KNum (x + y)) as D1.
      { intros q -> G. injection G as <-. cbn [ceval] in A1. apply LIT in A1. destruct A1 as [_ A1].
        refine (is_eq _ _ _ _ (SUM (CNum (q + n0)) _ _ _ _ (is_intro KNum (q + n0) _ (Qeq_refl _)) A2) _). rewrite A1, B, F. ring. }
      assert (forall q, a2 = CNum q -> Ok (CSum a1 (CNum (q + n0))) = Ok c -> is (ev c) KNum (x + y)) as D2.
      { intros q -> G. injection G as <-. cbn [ceval] in A2. apply LIT in A2. destruct A2 as [_ A2].
        refine (is_eq _ _ _ _ (SUM _ (CNum (q + n0)) _ _ _ A1 (is_intro KNum (q + n0) _ (Qeq_refl _))) _). rewrite A2, B, F. ring. }
      destruct a1; try (eapply D1; [reflexivity | exact H]); destruct a2; try (eapply D2; [reflexivity | exact H]); apply D; exact H.
  - intros a b c k x y H A B. cbn [dadd] in H. apply bind_ok in H. destruct H as ([r|] & M & H).
    + injection H as <-. apply (IHm _ _ _ _ _ _ M A B).
    + apply (IHp _ _ _ _ _ _ H A B).
  - intros a b c k x y H A B.
    assert (forall p q, bind (merge T n p b) (fun r =>
              match r with
              | Some r => bind (plus T n r (DCalc q)) (fun s => Ok (Some s))
              | None => bind (merge T n (DCalc q) b) (fun r =>
                  match r with Some r => bind (plus T n p r) (fun s => Ok (Some s)) | None => Ok None end)
              end) = Ok (Some c) ->
            forall x1 x2, is (dv p) k x1 -> is (ev q) k x2 -> x == x1 + x2 -> is (dv c) k (x + y)) as LEFT.
    { intros p q G x1 x2 P1 P2 F. apply bind_ok in G. destruct G as ([r|] & M & G).
      - apply bind_ok in G. destruct G as (s & G & S). injection S as <-. pose proof (IHm _ _ _ _ _ _ M P1 B) as I1.
        refine (is_eq _ _ _ _ (IHp _ _ _ _ _ _ G I1 (P2 : is (dv (DCalc q)) k x2)) _). rewrite F. ring.
      - apply bind_ok in G. destruct G as ([r|] & M2 & G); [|discriminate]. apply bind_ok in G.
        destruct G as (s & G & S). injection S as <-. pose proof (IHm _ _ _ _ _ _ M2 (P2 : is (dv (DCalc q)) k x2) B) as I1.
        refine (is_eq _ _ _ _ (IHp _ _ _ _ _ _ G P1 I1) _). rewrite F. ring. }
    assert (forall p q, bind (merge T n a p) (fun r =>
              match r with
              | Some r => bind (plus T n r (DCalc q)) (fun s => Ok (Some s))
              | None => bind (merge T n a (DCalc q)) (fun r =>
                  match r with Some r => bind (plus T n p r) (fun s => Ok (Some s)) | None => Ok None end)
              end) = Ok (Some c) ->
            forall y1 y2, is (dv p) k y1 -> is (ev q) k y2 -> y == y1 + y2 -> is (dv c) k (x + y)) as RIGHT.
    { intros p q G y1 y2 P1 P2 F. apply bind_ok in G. destruct G as ([r|] & M & G).
      - apply bind_ok in G. destruct G as (s & G & S). injection S as <-. pose proof (IHm _ _ _ _ _ _ M A P1) as I1.
        refine (is_eq _ _ _ _ (IHp _ _ _ _ _ _ G I1 (P2 : is (dv (DCalc q)) k y2)) _). rewrite F. ring.
      - apply bind_ok in G. destruct G as ([r|] & M2 & G); [|discriminate]. apply bind_ok in G.
        destruct G as (s & G & S). injection S as <-. pose proof (IHm _ _ _ _ _ _ M2 A (P2 : is (dv (DCalc q)) k y2)) as I1.
        refine (is_eq _ _ _ _ (IHp _ _ _ _ _ _ G P1 I1) _). rewrite F. ring. }
    cbn [merge] in H. destruct a as [a | a].
    + destruct b as [b | b].
      * destruct (ladd T a b) as [l|] eqn:E; cbn [option_map] in H; [|discriminate]. injection H as <-.
        cbn [dp_eval] in *. apply LIT in A. apply LIT in B. destruct A as [<- A], B as [_ B]. apply is_intro.
        rewrite (law_add _ _ W _ _ _ E), A, B. reflexivity.
      * destruct b; try discriminate.
        -- apply (IHm _ _ _ _ _ _ H A B).
        -- cbn [dp_eval ceval] in B. apply two_inv in B. destruct B as (y1 & y2 & B1 & B2 & F).
           apply (RIGHT _ _ H y1 y2); assumption.
    + destruct a; try discriminate.
      * apply (IHm _ _ _ _ _ _ H A B).
      * cbn [dp_eval ceval] in A. apply two_inv in A. destruct A as (x1 & x2 & A1 & A2 & F).
        apply (LEFT _ _ H x1 x2); assumption.
  - intros a b c k x y H A B. cbn [plus] in H.
    destruct (dp_zero T a) eqn:ZA.
    { injection H as <-. destruct (zero_is _ _ _ ZA A) as [Z _]. refine (is_eq _ _ _ _ B _). rewrite Z. ring. }
    destruct (dp_zero T b) eqn:ZB.
    { injection H as <-. destruct (zero_is _ _ _ ZB B) as [Z _]. refine (is_eq _ _ _ _ A _). rewrite Z. ring. }
    assert (forall p q x y, is (dv p) k x -> is (dv q) k y ->
      match p, q with
      | DCalc a, DCalc b => bind (cadd T n a b) (fun c => Ok (DCalc c))
      | DCalc (CVal a), DLeaf b => plus T n (DLeaf a) q
      | DCalc c, DLeaf b => Ok (DCalc (CSum c (CVal b)))
      | DLeaf a, DCalc (CVal b) => plus T n p (DLeaf b)
      | DLeaf a, DCalc c => Ok (DCalc (CSum (CVal a) c))
      | DLeaf a, DLeaf b => Ok (DCalc (CSum (CVal a) (CVal b)))
      end = Ok c -> is (dv c) k (x + y)) as M.
    { clear - IHc IHp SUM. intros p q x y P Q H.
      assert (forall u v, is (ev u) k x -> is (ev v) k y -> Ok (DCalc (CSum u v)) = Ok c -> is (dv c) k (x + y)) as S
        by (intros u v U V G; injection G as <-; apply (SUM _ _ _ _ _ U V)).
      destruct p as [p | p], q as [q | q].
      - exact (S (CVal p) (CVal q) P Q H).
      - destruct q; try (injection H as <-; cbn [dp_eval] in *; apply SUM; assumption). apply (IHp _ _ _ _ _ _ H P Q).
      - destruct p; try (injection H as <-; cbn [dp_eval] in *; apply SUM; assumption). apply (IHp _ _ _ _ _ _ H P Q).
      - assert (bind (cadd T n p q) (fun c => Ok (DCalc c)) = Ok c) as G by (destruct p; exact H).
        apply bind_ok in G. destruct G as (d & G & E). injection E as <-. apply (IHc _ _ _ _ _ _ G P Q). }
    destruct (sign_negative (dp_sign T a) && sign_positive (dp_sign T b)).
    + refine (is_eq _ _ _ _ (M b a y x B A H) _). ring.
    + apply (M a b x y A B H).
Qed.

(** ** [min], [max] and [clamp] *)
Definition vals (k : kind) (cs : list (calc (leaf T))) (qs : list Q) : Prop := Forall2 (fun c q => is (ev c) k q) cs qs.
Lemma compare_args_is : forall a b o k x y, compare_args T a b = Some o -> is (ev a) k x -> is (ev b) k y ->
  match o with Lt => x <= y | Eq => x == y | Gt => y <= x end.
Proof.
  intros a b o k x y H (p & A & EA) (q & B & EB). destruct a; try discriminate; destruct b; try discriminate; cbn in H, A, B;
    injection A as <- <-; injection B as <-.
  - pose proof (law_cmp _ _ W _ _ _ H) as C. destruct o; rewrite EA, EB in C; exact C.
  - injection H as <-. destruct (n ?= n0) eqn:C; rewrite <- EA, <- EB.
    + apply Qeq_alt; exact C.
    + apply Qlt_le_weak. apply Qlt_alt; exact C.
    + apply Qlt_le_weak. apply Qgt_alt; exact C.
Qed.
Lemma vals_map : forall k cs qs, vals k cs qs -> Forall2 (fun v q => is v k q) (map ev cs) qs.
Proof. intros k cs qs H. induction H; cbn [map]; constructor; assumption. Qed.
Lemma map_vals : forall k cs qs, Forall2 (fun v q => is v k q) (map ev cs) qs -> vals k cs qs.
Proof.
  intros k cs. induction cs as [|c cs IH]; intros qs H; cbn [map] in H; inversion H; subst; constructor; [assumption|].
  apply IH; assumption.
Qed.

Section Order.
Context (better : comparison) (le : Q -> Q -> Prop) (LT : forall x y z, le x y -> le y z -> le x z).
Context (LE : forall o x y, match o with Lt => x <= y | Eq => x == y | Gt => y <= x end ->
  if same_comparison o better then le x y else le y x).
Lemma put_arg_bound : forall k arg x cs qs, is (ev arg) k x -> vals k cs qs ->
  exists qs', vals k (put_arg T better arg cs) qs' /\ (forall z, bound le z qs' <-> le z x /\ bound le z qs).
Proof.
  intros k arg x cs qs A H. induction H as [|c q cs qs C H (qs' & IH1 & IH2)]; cbn [put_arg].
  - exists [x]. split; [constructor; [exact A | constructor]|]. intros z. unfold bound. split.
    + intros B. inversion B; subst. split; assumption.
    + intros [B1 B2]. constructor; assumption.
  - destruct (compare_args T arg c) as [o|] eqn:E.
    + pose proof (LE _ _ _ (compare_args_is _ _ _ _ _ _ E A C)) as D. destruct (same_comparison o better).
      * exists (x :: qs). split; [constructor; assumption|]. intros z. unfold bound. split.
        -- intros B. inversion B as [|? ? B1 B2]; subst. split; [exact B1|]. constructor; [apply (LT _ _ _ B1 D) | exact B2].
        -- intros [B1 B2]. inversion B2; subst. constructor; assumption.
      * exists (q :: qs). split; [constructor; assumption|]. intros z. unfold bound. split.
        -- intros B. inversion B as [|? ? B1 B2]; subst. split; [apply (LT _ _ _ B1 D)|]. constructor; assumption.
        -- intros [B1 B2]. exact B2.
    + exists (q :: qs'). split; [constructor; assumption|]. intros z. unfold bound in *. split.
      * intros B. inversion B as [|? ? B1 B2]; subst. apply IH2 in B2. destruct B2. split; [assumption | constructor; assumption].
      * intros [B1 B2]. inversion B2; subst. constructor; [assumption|]. apply IH2. split; assumption.
Qed.
Lemma reduce_bound : forall k cs qs, vals k cs qs ->
  exists qs', vals k (reduce_args T better cs) qs' /\ (forall z, bound le z qs' <-> bound le z qs).
Proof.
  intros k cs qs H. unfold reduce_args.
  assert (forall acc as_, vals k acc as_ ->
    exists qs', vals k (fold_left (fun reduced arg => put_arg T better arg reduced) cs acc) qs' /\ (forall z, bound le z qs' <-> bound le z qs /\ bound le z as_)) as G.
  { induction H as [|c q cs qs C H IH]; intros acc as_ A; cbn [fold_left].
    - exists as_. split; [exact A|]. intros z. unfold bound. split; [intros B; split; [constructor | exact B] | tauto].
    - destruct (put_arg_bound _ _ _ _ _ C A) as (as2 & A2 & B2). destruct (IH _ _ A2) as (qs' & A3 & B3).
      exists qs'. split; [exact A3|]. intros z. rewrite B3, B2. unfold bound. split.
      + intros (X & Y & Z). split; [constructor; assumption | exact Z].
      + intros [X Z]. inversion X; subst. tauto. }
  destruct (G [] [] (Forall2_nil _)) as (qs' & A & B). exists qs'. split; [exact A|]. intros z. rewrite B. unfold bound.
  split; [tauto | intros X; split; [exact X | constructor]].
Qed.
End Order.

Lemma put_arg_some : forall better arg cs, put_arg T better arg cs <> [].
Proof.
  intros better arg [|c cs]; cbn [put_arg]; [discriminate|]. destruct (compare_args T arg c) as [o|]; [|discriminate].
  destruct (same_comparison o better); discriminate.
Qed.
Lemma reduce_some : forall better cs, cs <> [] -> reduce_args T better cs <> [].
Proof.
  intros better cs. unfold reduce_args. assert (forall acc, (acc <> [] \/ cs <> []) ->
    fold_left (fun reduced arg => put_arg T better arg reduced) cs acc <> []) as G; [|intros N; apply G; right; exact N].
  induction cs as [|c cs IH]; intros acc [N | N]; cbn [fold_left]; try assumption; try contradiction;
    apply IH; left; apply put_arg_some.
Qed.

Lemma min_is : forall k cs q qs, vals k cs (q :: qs) -> is (ev (min_max T Lt FMin cs)) k (least q qs).
Proof.
  intros k cs q qs H. destruct (reduce_bound Lt Qle Qle_trans) with (k := k) (cs := cs) (qs := q :: qs) as (qs' & A & B).
  - intros [| |] x y C; cbn [same_comparison]; lra.
  - exact H.
  - pose proof (reduce_some Lt cs) as N. unfold min_max. destruct (reduce_args T Lt cs) as [|c [|d ds]].
    + exfalso. apply N; [|reflexivity]. intros ->. inversion H.
    + inversion A as [|? p ? ? C D]; subst. inversion D; subst. refine (is_eq _ _ _ _ C _).
      change p with (least p []). apply least_same. exact B.
    + inversion A as [|? p ? ps C D]; subst. cbn [ceval]. refine (is_eq _ _ _ _ (list_is _ _ _ _ _ least_comp (vals_map _ _ _ A)) _).
      apply least_same. exact B.
Qed.
Lemma max_is : forall k cs q qs, vals k cs (q :: qs) -> is (ev (min_max T Gt FMax cs)) k (greatest q qs).
Proof.
  intros k cs q qs H. destruct (reduce_bound Gt (fun z q => q <= z)) with (k := k) (cs := cs) (qs := q :: qs) as (qs' & A & B).
  - intros x y z X Y. apply (Qle_trans _ y); assumption.
  - intros [| |] x y C; cbn [same_comparison]; lra.
  - exact H.
  - pose proof (reduce_some Gt cs) as N. unfold min_max. destruct (reduce_args T Gt cs) as [|c [|d ds]].
    + exfalso. apply N; [|reflexivity]. intros ->. inversion H.
    + inversion A as [|? p ? ? C D]; subst. inversion D; subst. refine (is_eq _ _ _ _ C _).
      change p with (greatest p []). apply greatest_same. exact B.
    + inversion A as [|? p ? ps C D]; subst. cbn [ceval]. refine (is_eq _ _ _ _ (list_is _ _ _ _ _ greatest_comp (vals_map _ _ _ A)) _).
      apply greatest_same. exact B.
Qed.
Lemma clamp_is : forall k a b c x y z, is (ev a) k x -> is (ev b) k y -> is (ev c) k z ->
  is (ev (clamp T a b c)) k (css_clamp x y z).
Proof.
  intros k a b c x y z A B C. unfold clamp, css_clamp. destruct (compare_args T b c) as [o|] eqn:E.
  - pose proof (compare_args_is _ _ _ _ _ _ E B C) as D.
    assert (exists m, is (ev (match o with Gt => c | _ => b end)) k m /\ m == Qmin y z) as (m & M & EM).
    { destruct o; [exists y | exists y | exists z]; (split; [assumption|]); symmetry;
        [apply Q.min_l | apply Q.min_l | apply Q.min_r]; lra. }
    cbv zeta. destruct (compare_args T (match o with Gt => c | _ => b end) a) as [o2|] eqn:E2.
    + pose proof (compare_args_is _ _ _ _ _ _ E2 M A) as D2.
      apply (is_eq _ _ (Qmax x m)); [|rewrite EM; reflexivity].
      destruct o2; [refine (is_eq _ _ _ _ M _) | refine (is_eq _ _ _ _ A _) | refine (is_eq _ _ _ _ M _)]; symmetry;
        [apply Q.max_r | apply Q.max_l | apply Q.max_r]; lra.
    + cbn [ceval map]. refine (is_eq _ _ _ _ (list_is greatest _ k x [m] greatest_comp _) _).
      * repeat constructor; assumption.
      * cbn. rewrite EM. reflexivity.
  - cbn [ceval]. exact (three_is css_clamp _ _ _ _ _ _ _ clamp_comp A B C).
Qed.

(** ** Functions of two values *)
Lemma apply_op_num : forall a b f c x y, apply_op T a b f = Some c -> is (ev a) KNum x -> is (ev b) KNum y ->
  exists x' y', c = CNum (f x' y') /\ x' == x /\ y' == y.
Proof.
  intros a b f c x y H (p & A & EA) (q & B & EB). destruct a; try discriminate; destruct b; try discriminate.
  cbn in *. injection H as <-. injection A as <-. injection B as <-. exists n, n0. split; [reflexivity|]. split; assumption.
Qed.
Lemma apply_op_val : forall a b f c x y,
  (forall p q p' q', p == p' -> q == q' -> f p q == f p' q') -> apply_op T a b f = Some c -> is (ev a) KVal x -> is (ev b) KVal y ->
  exists k x' y', 0 <= k /\ x == k * x' /\ y == k * y' /\ is (ev c) KVal (k * f x' y').
Proof.
  intros a b f c x y P H (p & A & EA) (q & B & EB). destruct a; try discriminate; destruct b; try discriminate.
  cbn in *. destruct (lop T l l0 f) as [l'|] eqn:E; [|discriminate]. injection H as <-. injection A as <-. injection B as <-.
  destruct (law_op _ _ W _ _ _ _ P E) as (k & x' & y' & K & E1 & E2 & E3). exists k, x', y'.
  split; [exact K|]. split; [rewrite <- EA; exact E1|]. split; [rewrite <- EB; exact E2|]. apply is_intro. exact E3.
Qed.
Lemma math_fn_is : forall (code css : Q -> Q -> Q) (fallback : calc (leaf T) -> calc (leaf T) -> calc (leaf T)) a b k x y,
  (forall p q p' q', p == p' -> q == q' -> code p q == code p' q') ->
  (forall p q p' q', p == p' -> q == q' -> css p q == css p' q') ->
  (forall s p q, 0 < s -> ~ q == 0 -> css (s * p) (s * q) == s * css p q) ->
  (forall s p q, 0 < s -> s * p == x -> s * q == y -> code p q == css p q) ->
  ~ y == 0 -> is (ev a) k x -> is (ev b) k y -> is (ev (fallback a b)) k (css x y) ->
  is (ev (math_fn T code fallback a b)) k (css x y).
Proof.
  intros code css fallback a b k x y PC PS SC EQ N A B F. unfold math_fn.
  destruct (apply_op T a b code) as [c|] eqn:E; [|exact F]. destruct k.
  - destruct (apply_op_num _ _ _ _ _ _ E A B) as (x' & y' & -> & E1 & E2). apply is_intro.
    rewrite (EQ 1 x' y') by (try reflexivity; lra). apply PS; assumption.
  - destruct (apply_op_val _ _ _ _ _ _ PC E A B) as (k & x' & y' & K & E1 & E2 & C). refine (is_eq _ _ _ _ C _).
    assert (0 < k) as K1.
    { apply Qle_lteq in K. destruct K as [K | K]; [exact K|]. exfalso. apply N. rewrite E2, <- K. ring. }
    assert (~ y' == 0) as N1 by (intros Z; apply N; rewrite E2, Z; ring).
    rewrite (EQ k x' y') by (try (symmetry; assumption); assumption). rewrite <- SC by assumption.
    apply PS; symmetry; assumption.
Qed.
Lemma qround_comp : forall p q, p == q -> qround p = qround q.
Proof.
  intros p q E. unfold qround. rewrite (is_neg_comp _ _ E).
  destruct (is_neg q); [apply Qceiling_comp | apply Qfloor_comp]; rewrite E; reflexivity.
Qed.
Lemma round_comp : forall s p q p' q', p == p' -> q == q' -> round s p q == round s p' q'.
Proof.
  intros s p q p' q' E F. assert (p / q == p' / q') as G by (rewrite E, F; reflexivity). unfold round. cbv zeta.
  rewrite (qround_comp _ _ G), (Qceiling_comp _ _ G), (Qfloor_comp _ _ G), (qtrunc_comp _ _ G). destruct s; rewrite F; reflexivity.
Qed.
Lemma modulo_comp : forall p q p' q', p == p' -> q == q' -> modulo p q == modulo p' q'.
Proof.
  intros p q p' q' E F. unfold modulo. apply qrem_comp; [|exact F]. rewrite (qrem_comp _ _ _ _ E F), F. reflexivity.
Qed.
Lemma round_is : forall s k a b x y, is (ev a) k x -> is (ev b) k y -> 0 < y -> (s = SNearest -> x < 0 -> ~ tie x y) ->
  is (ev (math_fn T (round s) (FRound s) a b)) k (css_round s x y).
Proof.
  intros s k a b x y A B Y H. apply math_fn_is; try assumption.
  - apply round_comp.
  - apply css_round_comp.
  - intros k' p q K' N. apply css_round_scale; assumption.
  - intros k' p q K' E1 E2. apply code_round.
    + apply (scale_sign k' K'). rewrite E2. exact Y.
    + intros S P T'. apply (H S); [rewrite <- E1; apply scale_neg; assumption|].
      assert (~ q == 0) as N by (intros Z; rewrite Z in E2; lra).
      destruct (tie_scale k' K' p q N T') as [T1 T2].
      pose proof (lower_comp _ _ _ _ E1 E2) as EL. pose proof (upper_comp _ _ _ _ E1 E2) as EU. split.
      * rewrite <- EL, <- EU, <- E1. exact T1.
      * rewrite <- EL, <- E1. exact T2.
  - lra.
  - cbn [ceval]. apply two_is; [apply css_round_comp | exact A | apply nonzero_is; [exact B | lra]].
Qed.
Lemma rem_is : forall k a b x y, is (ev a) k x -> is (ev b) k y -> ~ y == 0 -> is (ev (math_fn T qrem FRem a b)) k (css_rem x y).
Proof.
  intros k a b x y A B Y. apply math_fn_is; try assumption.
  - apply qrem_comp.
  - apply css_rem_comp.
  - intros k' p q K' N. apply css_rem_scale; assumption.
  - intros k' p q K' E1 E2. apply code_rem. intros Z. apply Y. rewrite <- E2, Z. ring.
  - cbn [ceval]. apply two_is; [apply css_rem_comp | exact A | apply nonzero_is; assumption].
Qed.
Lemma mod_is : forall k a b x y, is (ev a) k x -> is (ev b) k y -> ~ y == 0 -> is (ev (math_fn T modulo FMod a b)) k (css_mod x y).
Proof.
  intros k a b x y A B Y. apply math_fn_is; try assumption.
  - apply modulo_comp.
  - apply css_mod_comp.
  - intros k' p q K' N. apply css_mod_scale; assumption.
  - intros k' p q K' E1 E2. apply code_mod. intros Z. apply Y. rewrite <- E2, Z. ring.
  - cbn [ceval]. apply two_is; [apply css_mod_comp | exact A | apply nonzero_is; assumption].
Qed.

(** ** [abs], [sign] and [hypot] *)
Lemma abs_is : forall k c x, is (ev c) k x -> is (ev (abs_fn T c)) k (css_abs x).
Proof.
  intros k c x C. unfold abs_fn.
  assert (is (ev (FAbs c)) k (css_abs x)) as F by (cbn [ceval]; apply one_is; [apply css_abs_comp | exact C]).
  destruct c; try exact F; cbn [apply_map].
  - destruct (lmap T l Qabs) as [l'|] eqn:E; cbn [option_map]; [|exact F].
    destruct (law_map _ _ W _ Qabs _ ltac:(intros p q X; rewrite X; reflexivity) E) as (s & p & S & E1 & E2 & _).
    destruct C as (q & C & EC). cbn in C. injection C as <- <-. apply is_intro.
    rewrite E2, code_abs, <- css_abs_scale by exact S. apply css_abs_comp. rewrite <- E1. exact EC.
  - destruct C as (q & C & EC). cbn in C. injection C as <- <-. apply is_intro. rewrite code_abs. apply css_abs_comp. exact EC.
Qed.
Lemma sign_is : forall k c x, is (ev c) k x -> (k = KVal -> ~ x == 0) -> is (ev (sign_fn T c)) KNum (css_sign x).
Proof.
  intros k c x C N. unfold sign_fn.
  assert (is (ev (FSign c)) KNum (css_sign x)) as F.
  { cbn [ceval]. destruct C as (q & C & EC). rewrite C. apply is_intro. rewrite (css_sign_comp _ _ EC). reflexivity. }
  destruct c; try exact F.
  - destruct (lmap T l qsign) as [l'|] eqn:E; [|exact F].
    destruct (law_map _ _ W _ qsign _ ltac:(intros p q X; rewrite (qsign_comp _ _ X); reflexivity) E) as (s & p & S & E1 & E2 & E3 & E4).
    destruct C as (q & C & EC). cbn in C. injection C as <- <-. apply is_intro.
    rewrite (qsign_comp _ _ E4), qsign_sign, code_sign. rewrite (css_sign_comp x (s * p)) by (rewrite <- EC; exact E1).
    rewrite css_sign_scale; [reflexivity|]. apply Qle_lteq in S. destruct S as [S | S]; [exact S|]. exfalso.
    apply (N eq_refl). rewrite <- EC, E1, <- S. ring.
  - destruct C as (q & C & EC). cbn in C. injection C as <- <-. apply is_intro. rewrite code_sign.
    rewrite (css_sign_comp _ _ EC). reflexivity.
Qed.
Lemma root_comp : list_comp (fun q qs => root (squares (q :: qs))).
Proof.
  intros q qs q' qs' E F. destruct R as (C & _). apply C. apply squares_comp. constructor; assumption.
Qed.
Lemma squares_from : forall qs s, fold_left (fun s q => s + q * q) qs s == s + squares qs.
Proof.
  unfold squares. induction qs as [|q qs IH]; intros s; cbn [fold_left]; [ring|]. rewrite IH, (IH (0 + q * q)). ring.
Qed.
Lemma add_squares_num : forall cs qs s s' c, vals KNum cs qs -> s == s' -> add_squares T (CNum s) cs = Some c ->
  exists t, c = CNum t /\ t == s' + squares qs.
Proof.
  intros cs qs s s' c H. revert s s'. induction H as [|d q cs qs D H IH]; intros s s' E G; cbn [add_squares] in G.
  - injection G as <-. exists s. split; [reflexivity|]. unfold squares. cbn. rewrite E. ring.
  - destruct (apply_op T (CNum s) d (fun a b => a + b * b)) as [acc|] eqn:O; [|discriminate].
    destruct (apply_op_num _ _ _ _ s q O (is_intro KNum s s (Qeq_refl s)) D) as (p & r & -> & E1 & E2).
    destruct (IH (p + r * r) (s' + q * q) ltac:(rewrite E1, E2, E; reflexivity) G) as (t & -> & E3). exists t.
    split; [reflexivity|]. rewrite E3. unfold squares. cbn [fold_left]. rewrite (squares_from qs (0 + q * q)). unfold squares. ring.
Qed.
Lemma hypot_is : forall k cs q qs, vals k cs (q :: qs) ->
  match cs with [_] => 0 <= q | [_; _] => True | _ => k = KNum end ->
  is (ev (match hypot T root cs with Some c => c | None => FHypot cs end)) k (root (squares (q :: qs))).
Proof.
  intros k cs q qs H P. pose proof R as (RC & RS & RK).
  assert (is (ev (FHypot cs)) k (root (squares (q :: qs)))) as F
    by (cbn [ceval]; apply (list_is _ _ _ _ _ root_comp (vals_map _ _ _ H))).
  destruct cs as [|a [|b [|d ds]]].
  - inversion H.
  - cbn [hypot]. inversion H as [|? ? ? ? A B]; subst. inversion B; subst. refine (is_eq _ _ _ _ A _).
    rewrite <- (RS q P) at 1. apply RC. unfold squares. cbn. ring.
  - cbn [hypot]. inversion H as [|? ? ? ? A B]; subst. inversion B as [|? r ? ? C D]; subst. inversion D; subst.
    destruct (apply_op T a b (fun a b => root (a * a + b * b))) as [c|] eqn:E; [|exact F]. destruct k.
    + destruct (apply_op_num _ _ _ _ _ _ E A C) as (x & y & -> & E1 & E2). apply is_intro. apply RC.
      unfold squares. cbn. rewrite E1, E2. ring.
    + destruct (apply_op_val _ _ (fun a b => root (a * a + b * b)) _ _ _ ltac:(intros u v u' v' X Y; apply RC; rewrite X, Y; reflexivity) E A C)
        as (k & x & y & K & E1 & E2 & I). refine (is_eq _ _ _ _ I _).
      cbv beta. transitivity (root (k * k * (x * x + y * y))).
      * symmetry. apply RK; [exact K | nra].
      * apply RC. unfold squares. cbn [fold_left]. rewrite E1, E2. ring.
  - subst k. inversion H as [|? ? ? ? A B]; subst.
    change (hypot T root (a :: b :: d :: ds)) with
      (match apply_map T a (fun v => v * v) with
       | None => None
       | Some first => match add_squares T first (b :: d :: ds) with Some sum => apply_map T sum root | None => None end
       end).
    destruct (apply_map T a (fun v => v * v)) as [f|] eqn:M; [|exact F].
    destruct a; try discriminate; cbn [apply_map] in M.
    { destruct A as (u & A & _). discriminate. }
    injection M as <-. destruct (add_squares T (CNum (n * n)) (b :: d :: ds)) as [c|] eqn:G; [|exact F].
    destruct A as (u & A & EA). cbn in A. injection A as <-.
    destruct (add_squares_num _ _ (n * n) (q * q) _ B ltac:(rewrite EA; reflexivity) G) as (t & -> & E). cbn [apply_map].
    apply is_intro. apply RC. rewrite E. unfold squares at 2. cbn [fold_left]. rewrite (squares_from qs (0 + q * q)). ring.
Qed.

(** ** Products *)
Lemma times_inv : forall a b k z, is (times a b) k z ->
  (exists x y, is a KNum x /\ is b k y /\ z == x * y) \/ (exists x y, is a k x /\ is b KNum y /\ z == x * y).
Proof.
  intros [[[|] x]|] [[k2 y]|] k z (q & E & F); cbn [times] in E; try discriminate.
  - injection E as <- <-. left. exists x, y. split; [apply is_intro; reflexivity|]. split; [apply is_intro; reflexivity | symmetry; exact F].
  - destruct k2; [|discriminate]. injection E as <- <-. right. exists x, y. split; [apply is_intro; reflexivity|].
    split; [apply is_intro; reflexivity | symmetry; exact F].
Qed.
Lemma product_is : forall a b c k z, product T a b = Ok c -> is (times (ev a) (ev b)) k z -> is (ev c) k z.
Proof.
  intros a b c k z H E.
  assert (forall v, b = CNum v -> Ok (cmul T v a) = Ok c -> is (ev c) k z) as D1.
  { intros v -> G. injection G as <-. apply times_inv in E. destruct E as [(x & y & A & B & F) | (x & y & A & B & F)].
    - destruct B as (u & B & EB). cbn in B. injection B as <- <-. refine (is_eq _ _ _ _ (cmul_is _ _ _ _ A) _).
      rewrite F, EB. ring.
    - destruct B as (u & B & EB). cbn in B. injection B as <-. refine (is_eq _ _ _ _ (cmul_is _ _ _ _ A) _). rewrite F, EB. ring. }
  assert (forall v, a = CNum v -> Ok (cmul T v b) = Ok c -> is (ev c) k z) as D2.
  { intros v -> G. injection G as <-. apply times_inv in E. destruct E as [(x & y & A & B & F) | (x & y & A & B & F)].
    - destruct A as (u & A & EA). cbn in A. injection A as <-. refine (is_eq _ _ _ _ (cmul_is _ _ _ _ B) _). rewrite F, EA. ring.
    - destruct A as (u & A & EA). cbn in A. injection A as <- <-. refine (is_eq _ _ _ _ (cmul_is _ _ _ _ B) _). rewrite F, EA. ring. }
  unfold product in H. destruct b; try (eapply D1; [reflexivity | exact H]); destruct a; try discriminate;
    (eapply D2; [reflexivity | exact H]).
Qed.
Lemma over_inv : forall a b k z, is (over a b) k z -> exists x y, is a k x /\ is b KNum y /\ ~ y == 0 /\ z == x / y.
Proof.
  intros [[k1 x]|] [[[|] y]|] k z (q & E & F); cbn [over] in E; try discriminate.
  destruct (Qeq_bool y 0) eqn:Z; [discriminate|]. injection E as <- <-. exists x, y.
  split; [apply is_intro; reflexivity|]. split; [apply is_intro; reflexivity|].
  split; [intros X; apply Qeq_bool_iff in X; congruence | symmetry; exact F].
Qed.
Lemma quotient_is : forall a b c k z, quotient T a b = Ok c -> is (over (ev a) (ev b)) k z -> is (ev c) k z.
Proof.
  intros a b c k z H E. apply over_inv in E. destruct E as (x & y & A & B & N & F).
  destruct b; try discriminate. cbn [quotient] in H. destruct (Qeq_bool n 0) eqn:Z; [discriminate|]. injection H as <-.
  destruct B as (u & B & EB). cbn in B. injection B as <-. refine (is_eq _ _ _ _ (cmul_is _ _ _ _ A) _). rewrite F, EB. field. exact N.
Qed.

(** ** Expressions *)
Notation ee := (eval lval root).
Lemma times_fun : forall a b a' b' k z, is (times a b) k z ->
  (forall k x, is a k x -> is a' k x) -> (forall k x, is b k x -> is b' k x) -> is (times a' b') k z.
Proof.
  intros a b a' b' k z H A B. apply times_inv in H. destruct H as [(x & y & X & Y & F) | (x & y & X & Y & F)];
    apply A in X; apply B in Y; destruct X as (p & -> & EX), Y as (q & -> & EY); cbn [times].
  - apply is_intro. rewrite F, EX, EY. reflexivity.
  - destruct k; apply is_intro; rewrite F, EX, EY; reflexivity.
Qed.
Lemma over_fun : forall a b a' b' k z, is (over a b) k z ->
  (forall k x, is a k x -> is a' k x) -> (forall k x, is b k x -> is b' k x) -> is (over a' b') k z.
Proof.
  intros a b a' b' k z H A B. apply over_inv in H. destruct H as (x & y & X & Y & N & F).
  apply A in X. apply B in Y. destruct X as (p & -> & EX), Y as (q & -> & EY). cbn [over].
  destruct (Qeq_bool q 0) eqn:Z.
  - apply Qeq_bool_iff in Z. rewrite EY in Z. contradiction.
  - apply is_intro. rewrite F, EX, EY. reflexivity.
Qed.
Lemma plain_list : forall es : list (expr (leaf T)), fold_right and True (map (plain lval root) es) -> Forall (plain lval root) es.
Proof. induction es as [|e es IH]; intros H; [constructor|]. destruct H as [H1 H2]. constructor; [exact H1 | apply IH; exact H2]. Qed.
Lemma args_vals : forall n k es cs qs,
  Forall (fun e => plain lval root e -> forall c k x, simp T root n e = Ok c -> is (ee e) k x -> is (ev c) k x) es ->
  Forall (plain lval root) es -> Forall2 (fun e c => simp T root n e = Ok c) es cs ->
  Forall2 (fun v q => is v k q) (map ee es) qs -> vals k cs qs.
Proof.
  intros n k es cs qs IH P S. revert qs. induction S as [|e c es cs E S IHS]; intros qs V; cbn [map] in V; inversion V; subst; constructor.
  - apply (Forall_inv IH (Forall_inv P) _ _ _ E). assumption.
  - apply IHS; [apply (Forall_inv_tail IH) | apply (Forall_inv_tail P) | assumption].
Qed.

Lemma simp_is : forall n e, plain lval root e -> forall c k x, simp T root n e = Ok c -> is (ee e) k x -> is (ev c) k x.
Proof.
  intros n. destruct (add_sound n) as (ADD & _). intros e. induction e using expr_induction; intros P c' k x S E; cbn [simp] in S;
    try (apply bind_ok in S; destruct S as (ca & S1 & S)); cbn [plain] in P; cbn [eval] in E.
  - injection S as <-. exact E.
  - injection S as <-. exact E.
  - apply bind_ok in S. destruct S as (cb & S2 & S). destruct P as [P1 P2]. apply two_inv in E. destruct E as (x1 & x2 & E1 & E2 & F).
    refine (is_eq _ _ _ _ (ADD _ _ _ _ _ _ S (IHe1 P1 _ _ _ S1 E1) (IHe2 P2 _ _ _ S2 E2)) _). symmetry. exact F.
  - apply bind_ok in S. destruct S as (cb & S2 & S). destruct P as [P1 P2]. apply two_inv in E. destruct E as (x1 & x2 & E1 & E2 & F).
    refine (is_eq _ _ _ _ (ADD _ _ _ _ _ _ S (IHe1 P1 _ _ _ S1 E1) (cmul_is _ _ _ _ (IHe2 P2 _ _ _ S2 E2))) _). rewrite F. ring.
  - apply bind_ok in S. destruct S as (cb & S2 & S). destruct P as [P1 P2]. refine (product_is _ _ _ _ _ S _).
    refine (times_fun _ _ _ _ _ _ E _ _); intros k' y; [apply (IHe1 P1 _ _ _ S1) | apply (IHe2 P2 _ _ _ S2)].
  - apply bind_ok in S. destruct S as (cb & S2 & S). destruct P as [P1 P2]. refine (quotient_is _ _ _ _ _ S _).
    refine (over_fun _ _ _ _ _ _ E _ _); intros k' y; [apply (IHe1 P1 _ _ _ S1) | apply (IHe2 P2 _ _ _ S2)].
  - apply (IHe P _ _ _ S E).
  - apply list_inv in E. destruct E as (q & qs & E & F). apply all_ok_forall2 in S1. apply plain_list in P.
    pose proof (args_vals _ _ _ _ _ H P S1 E) as V. refine (is_eq _ _ _ _ _ (Qeq_sym _ _ F)).
    destruct ca; [discriminate|]. injection S as <-. apply min_is. exact V.
  - apply list_inv in E. destruct E as (q & qs & E & F). apply all_ok_forall2 in S1. apply plain_list in P.
    pose proof (args_vals _ _ _ _ _ H P S1 E) as V. refine (is_eq _ _ _ _ _ (Qeq_sym _ _ F)).
    destruct ca; [discriminate|]. injection S as <-. apply max_is. exact V.
  - apply bind_ok in S. destruct S as (cb & S2 & S). apply bind_ok in S. destruct S as (cc & S3 & S). injection S as <-.
    destruct P as (P1 & P2 & P3). apply three_inv in E. destruct E as (x1 & x2 & x3 & E1 & E2 & E3 & F).
    refine (is_eq _ _ _ _ (clamp_is _ _ _ _ _ _ _ (IHe1 P1 _ _ _ S1 E1) (IHe2 P2 _ _ _ S2 E2) (IHe3 P3 _ _ _ S3 E3)) _). symmetry. exact F.
  - apply bind_ok in S. destruct S as (cb & S2 & S). injection S as <-. destruct P as (P1 & P2 & P3).
    apply two_inv in E. destruct E as (x1 & x2 & E1 & E2 & F). apply nonzero_inv in E2. destruct E2 as [E2 N].
    refine (is_eq _ _ _ _ (round_is _ _ _ _ _ _ (IHe1 P1 _ _ _ S1 E1) (IHe2 P2 _ _ _ S2 E2) _ _) (Qeq_sym _ _ F)).
    + destruct E1 as (u & E1 & G1), E2 as (v & E2 & G2). destruct (P3 _ _ _ _ E1 E2) as [Q1 _]. rewrite <- G2. exact Q1.
    + destruct E1 as (u & E1 & G1), E2 as (v & E2 & G2). destruct (P3 _ _ _ _ E1 E2) as [_ Q2]. intros S X T'.
      apply (Q2 S); [rewrite G1; exact X|]. destruct T' as [T1 T2].
      pose proof (lower_comp _ _ _ _ G1 G2) as EL. pose proof (upper_comp _ _ _ _ G1 G2) as EU. split.
      * rewrite EL, EU, G1. exact T1.
      * rewrite EL, G1. exact T2.
  - apply bind_ok in S. destruct S as (cb & S2 & S). injection S as <-. destruct P as (P1 & P2).
    apply two_inv in E. destruct E as (x1 & x2 & E1 & E2 & F). apply nonzero_inv in E2. destruct E2 as [E2 N].
    exact (is_eq _ _ _ _ (rem_is _ _ _ _ _ (IHe1 P1 _ _ _ S1 E1) (IHe2 P2 _ _ _ S2 E2) N) (Qeq_sym _ _ F)).
  - apply bind_ok in S. destruct S as (cb & S2 & S). injection S as <-. destruct P as (P1 & P2).
    apply two_inv in E. destruct E as (x1 & x2 & E1 & E2 & F). apply nonzero_inv in E2. destruct E2 as [E2 N].
    exact (is_eq _ _ _ _ (mod_is _ _ _ _ _ (IHe1 P1 _ _ _ S1 E1) (IHe2 P2 _ _ _ S2 E2) N) (Qeq_sym _ _ F)).
  - injection S as <-. apply one_inv in E. destruct E as (x1 & E1 & F).
    exact (is_eq _ _ _ _ (abs_is _ _ _ (IHe P _ _ _ S1 E1)) (Qeq_sym _ _ F)).
  - injection S as <-. destruct P as [P1 P2]. destruct (ee e) as [[k1 x1]|] eqn:EE; [|destruct E as (u & E & _); discriminate].
    destruct E as (u & E & F). injection E as <- <-. refine (is_eq _ _ _ _ (sign_is k1 ca x1 _ _) F).
    + apply (IHe P1 _ _ _ S1). apply is_intro. reflexivity.
    + intros ->. apply P2. reflexivity.
  - apply list_inv in E. destruct E as (q & qs & E & F). apply all_ok_forall2 in S1. destruct P as [P P2]. apply plain_list in P.
    pose proof (args_vals _ _ _ _ _ H P S1 E) as V. refine (is_eq _ _ _ _ _ (Qeq_sym _ _ F)).
    destruct ca as [|c1 cs]; [discriminate|]. injection S as <-. refine (hypot_is k (c1 :: cs) q qs V _).
    inversion S1 as [|e1 ? es1 ? T1 T2]; subst. inversion T2 as [|e2 ? es2 ? T3 T4]; subst.
    + inversion E as [|? ? ? ? E1 E2]; subst. destruct E1 as (u & E1 & G). rewrite <- G. apply (P2 _ _ E1).
    + inversion T4 as [|e3 ? es3 ? T5 T6]; subst; [exact I|].
      destruct k; [reflexivity|]. exfalso. inversion E as [|? ? ? ? E1 E2]; subst. destruct E1 as (u & E1 & _).
      apply (P2 e1 u); [left; reflexivity | exact E1].
Qed.
Lemma same_of_is : forall v w, (forall k x, is v k x -> is w k x) -> v <> None -> same_value v w.
Proof.
  intros [[k x]|] w H N; [|contradiction]. destruct (H k x (is_intro k x x (Qeq_refl x))) as (q & -> & F). cbn.
  split; [reflexivity | symmetry; exact F].
Qed.
Theorem simp_sound : forall n e c, plain lval root e -> ee e <> None -> simp T root n e = Ok c -> same_value (ee e) (ev c).
Proof. intros n e c P N S. apply same_of_is; [|exact N]. intros k x. apply (simp_is n e P c k x S). Qed.
Lemma parse_dp_is : forall n e d k x, plain lval root e -> parse_dp T root n e = Ok d -> is (ee e) k x -> is (dv d) k x.
Proof.
  intros n e d k x P H E.
  assert (forall c, simp T root n e = Ok c ->
    Ok (match c with CVal l => DLeaf l | _ => DCalc c end) = Ok d -> is (dv d) k x) as G.
  { intros c S G. pose proof (simp_is n e P c k x S E) as I. injection G as <-. destruct c; exact I. }
  destruct e; cbn [parse_dp parse_function bind] in H; try discriminate;
    try (apply bind_ok in H; destruct H as (c & S & H); apply (G c S H)).
  - injection H as <-. exact E.
  - apply bind_ok in H. destruct H as (c & S & H). apply bind_ok in S. destruct S as (c' & S & S2).
    pose proof (simp_is n e P c' k x S E) as I. injection S2 as <-. injection H as <-. destruct c'; exact I.
Qed.
Theorem parse_dp_sound : forall n e d, plain lval root e -> ee e <> None -> parse_dp T root n e = Ok d -> same_value (ee e) (dv d).
Proof. intros n e d P N S. apply same_of_is; [|exact N]. intros k x. apply (parse_dp_is n e d k x P S). Qed.
Theorem parse_flat_sound : forall n e l, plain lval root e -> ee e <> None -> parse_flat T root n e = Ok l ->
  same_value (ee e) (Some (KVal, lval l)).
Proof.
  intros n e l P N S. apply (parse_dp_sound n e (DLeaf l) P N).
  destruct e; cbn [parse_flat parse_dp parse_function bind] in *; try discriminate;
    try (apply bind_ok in S; destruct S as (c & S & H); rewrite S; cbn [bind];
         destruct c; try discriminate; injection H as <-; reflexivity).
  - injection S as <-. reflexivity.
Qed.
Theorem parse_percentage_sound : forall n e l, plain lval root e -> ee e <> None -> parse_percentage T root n e = Ok (Some l) ->
  same_value (ee e) (Some (KVal, lval l)).
Proof.
  intros n e l P N S. apply (parse_dp_sound n e (DLeaf l) P N).
  destruct e; cbn [parse_percentage parse_dp parse_function bind] in *; try discriminate;
    try (apply bind_ok in S; destruct S as (c & S & H); rewrite S; cbn [bind];
         destruct c; try discriminate; injection H as <-; reflexivity).
  - injection S as <-. reflexivity.
Qed.
End Sound.
