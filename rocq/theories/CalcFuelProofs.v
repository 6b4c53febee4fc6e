(** * Reading a math function returns, and accepts what is well formed *)
From Coq Require Import List Bool ZArith QArith Qround Qabs Qminmax Lqa Lia Setoid.
From Verif Require Import CalcModel CalcSpec CalcArithProofs CalcProofs.
Import ListNotations.
Local Open Scope Q_scope.

(** ** More fuel does not change a result *)
Lemma bind_mono : forall {A B : Type} (o o' : out A) (f f' : A -> out B),
  (o <> Loop -> o' = o) -> (forall a, o = Ok a -> f a <> Loop -> f' a = f a) -> bind o f <> Loop -> bind o' f' = bind o f.
Proof.
  intros A B [a | |] o' f f' H1 H2 N; cbn [bind] in *.
  - rewrite (H1 ltac:(discriminate)). cbn [bind]. apply (H2 a eq_refl N).
  - rewrite (H1 ltac:(discriminate)). reflexivity.
  - contradiction.
Qed.
Section Fuel.
Context (T : vtype).
Lemma plus_S : forall n a b, plus T (S n) a b =
  if dp_zero T a then Ok b else if dp_zero T b then Ok a else
  let '(x, y) := if sign_negative (dp_sign T a) && sign_positive (dp_sign T b) then (b, a) else (a, b) in
  match x, y with
  | DCalc a, DCalc b => bind (cadd T n a b) (fun c => Ok (DCalc c))
  | DCalc (CVal a), DLeaf b => plus T n (DLeaf a) y
  | DCalc c, DLeaf b => Ok (DCalc (CSum c (CVal b)))
  | DLeaf a, DCalc (CVal b) => plus T n x (DLeaf b)
  | DLeaf a, DCalc c => Ok (DCalc (CSum (CVal a) c))
  | DLeaf a, DLeaf b => Ok (DCalc (CSum (CVal a) (CVal b)))
  end.
Proof. reflexivity. Qed.
Lemma add_step : forall n,
  (forall a b, cadd T n a b <> Loop -> cadd T (S n) a b = cadd T n a b) /\
  (forall a b, dadd T n a b <> Loop -> dadd T (S n) a b = dadd T n a b) /\
  (forall a b, merge T n a b <> Loop -> merge T (S n) a b = merge T n a b) /\
  (forall a b, plus T n a b <> Loop -> plus T (S n) a b = plus T n a b).
Proof.
  induction n as [|n (IHc & IHd & IHm & IHp)]; [repeat split; intros; contradiction|].
  assert (forall r d, bind (plus T n r d) (fun s => Ok (Some s)) <> Loop ->
    bind (plus T (S n) r d) (fun s => Ok (Some s)) = bind (plus T n r d) (fun s => Ok (Some s))) as P
    by (intros r d; apply bind_mono; [apply IHp | reflexivity]).
  split; [|split; [|split]].
  - intros a b N. change (cadd T (S n) a b <> Loop) in N.
    assert (forall x y, bind (dadd T n x y) (fun d => Ok (into d)) <> Loop ->
      bind (dadd T (S n) x y) (fun d => Ok (into d)) = bind (dadd T n x y) (fun d => Ok (into d))) as D
      by (intros x y; apply bind_mono; [apply IHd | reflexivity]).
    destruct a, b; try reflexivity; try (apply D; exact N);
      change (cadd T (S (S n))) with (fun a b => cadd T (S (S n)) a b); cbn [cadd] in N |- *; cbv zeta in N |- *;
      destruct (flexible T); try reflexivity; apply D; exact N.
  - intros a b N. cbn [dadd] in N. change (dadd T (S (S n)) a b) with
      (bind (merge T (S n) a b) (fun r => match r with Some r => Ok r | None => plus T (S n) a b end)).
    change (dadd T (S n) a b) with (bind (merge T n a b) (fun r => match r with Some r => Ok r | None => plus T n a b end)).
    apply bind_mono; [apply IHm | | exact N]. intros [r|] _ N'; [reflexivity | apply IHp; exact N'].
  - intros a b N. destruct a as [a | a].
    + destruct b as [b | b]; [reflexivity|]. destruct b; try reflexivity.
      * change (merge T (S n) (DLeaf a) (DLeaf l) = merge T n (DLeaf a) (DLeaf l)). apply IHm. exact N.
      * change (merge T (S (S n)) (DLeaf a) (DCalc (CSum b1 b2))) with
          (bind (merge T (S n) (DLeaf a) (DCalc b1)) (fun r =>
                match r with
                | Some r => bind (plus T (S n) r (DCalc b2)) (fun s => Ok (Some s))
                | None =>
                    bind (merge T (S n) (DLeaf a) (DCalc b2)) (fun r =>
                      match r with
                      | Some r => bind (plus T (S n) (DCalc b1) r) (fun s => Ok (Some s))
                      | None => Ok None
                      end)
                end)).
        cbn [merge] in N |- *. apply bind_mono; [apply IHm | | exact N]. intros [r|] _ N'; [apply P; exact N'|].
        apply bind_mono; [apply IHm | | exact N']. intros [r|] _ N''; [apply P; exact N'' | reflexivity].
    + destruct a; try reflexivity.
      * change (merge T (S n) (DLeaf l) b = merge T n (DLeaf l) b). apply IHm. exact N.
      * change (merge T (S (S n)) (DCalc (CSum a1 a2)) b) with
          (bind (merge T (S n) (DCalc a1) b) (fun r =>
            match r with
            | Some r => bind (plus T (S n) r (DCalc a2)) (fun s => Ok (Some s))
            | None =>
                bind (merge T (S n) (DCalc a2) b) (fun r =>
                  match r with
                  | Some r => bind (plus T (S n) (DCalc a1) r) (fun s => Ok (Some s))
                  | None => Ok None
                  end)
            end)).
        cbn [merge] in N |- *. apply bind_mono; [apply IHm | | exact N]. intros [r|] _ N'; [apply P; exact N'|].
        apply bind_mono; [apply IHm | | exact N']. intros [r|] _ N''; [apply P; exact N'' | reflexivity].
  - intros a b N. rewrite (plus_S (S n)), (plus_S n). rewrite plus_S in N.
    destruct (dp_zero T a); [reflexivity|]. destruct (dp_zero T b); [reflexivity|].
    destruct (if sign_negative (dp_sign T a) && sign_positive (dp_sign T b) then (b, a) else (a, b)) as [x y].
    assert (forall p q, bind (cadd T n p q) (fun c => Ok (DCalc c)) <> Loop ->
      bind (cadd T (S n) p q) (fun c => Ok (DCalc c)) = bind (cadd T n p q) (fun c => Ok (DCalc c))) as C
      by (intros p q; apply bind_mono; [apply IHc | reflexivity]).
    destruct x as [x | x], y as [y | y].
    + reflexivity.
    + destruct y; try reflexivity. apply IHp. exact N.
    + destruct x; try reflexivity. apply IHp. exact N.
    + destruct x; apply C; exact N.
Qed.
Lemma cadd_mono : forall n m a b, (n <= m)%nat -> cadd T n a b <> Loop -> cadd T m a b = cadd T n a b.
Proof.
  intros n m a b H N. induction H as [|m H IH]; [reflexivity|].
  destruct (add_step m) as (S1 & _). rewrite S1; [exact IH | rewrite IH; exact N].
Qed.
Lemma merge_mono : forall n m a b, (n <= m)%nat -> merge T n a b <> Loop -> merge T m a b = merge T n a b.
Proof.
  intros n m a b H N. induction H as [|m H IH]; [reflexivity|].
  destruct (add_step m) as (_ & _ & S1 & _). rewrite S1; [exact IH | rewrite IH; exact N].
Qed.
Lemma plus_mono : forall n m a b, (n <= m)%nat -> plus T n a b <> Loop -> plus T m a b = plus T n a b.
Proof.
  intros n m a b H N. induction H as [|m H IH]; [reflexivity|].
  destruct (add_step m) as (_ & _ & _ & S1). rewrite S1; [exact IH | rewrite IH; exact N].
Qed.

(** ** Adding something that is not a sum returns *)
Definition sum (c : calc (leaf T)) : bool := match c with CSum _ _ => true | _ => false end.
Fixpoint terms (c : calc (leaf T)) : nat := match c with CSum a b => terms a + terms b | _ => 1 end.
(** Sums group to the left, and what a number multiplies is a function. *)
Fixpoint chain (c : calc (leaf T)) : Prop :=
  match c with
  | CSum a b => chain a /\ sum b = false /\ chain b
  | CProd _ c => is_function c = true /\ sum c = false
  | _ => True
  end.
Definition dsum (d : dp (leaf T)) : bool := match d with DLeaf _ => false | DCalc c => sum c end.
Definition dterms (d : dp (leaf T)) : nat := match d with DLeaf _ => 1 | DCalc c => terms c end.
Definition dchain (d : dp (leaf T)) : Prop := match d with DLeaf _ => True | DCalc c => chain c end.
Lemma sum_terms : forall c, sum c = false -> terms c = 1%nat.
Proof. intros [] H; try reflexivity. discriminate. Qed.
Lemma terms_pos : forall c, (1 <= terms c)%nat.
Proof. induction c; cbn [terms]; lia. Qed.
Lemma dsum_sign : forall d, dp_sign T d <> None -> dsum d = false.
Proof. intros [l | []] H; try reflexivity. contradiction. Qed.

Definition returns {A : Type} (f : nat -> out A) (P : A -> Prop) : Prop :=
  exists n, f n <> Loop /\ (forall a, f n = Ok a -> P a).
Lemma returns_ok : forall {A : Type} (f : nat -> out A) (P : A -> Prop) n a, f n = Ok a -> P a -> returns f P.
Proof. intros A f P n a E H. exists n. rewrite E. split; [discriminate|]. intros b F. injection F as <-. exact H. Qed.

Definition cgood (m : nat) (c : calc (leaf T)) : Prop := chain c /\ (terms c <= m)%nat.
Definition dgood (m : nat) (d : dp (leaf T)) : Prop := dchain d /\ (dterms d <= m)%nat.

Lemma plus_returns : forall m,
  (forall a b, chain a -> chain b -> sum b = false -> (terms a + terms b <= m)%nat ->
     returns (fun n => cadd T n a b) (cgood (terms a + terms b))) ->
  forall x y, dchain x -> dchain y -> dsum y = false -> (dterms x + dterms y <= m)%nat ->
    returns (fun n => plus T n x y) (dgood (dterms x + dterms y)).
Proof.
  intros m IH x y X Y NS M.
  destruct (dp_zero T x) eqn:ZX.
  { apply (returns_ok _ _ 1 y); [rewrite plus_S, ZX; reflexivity|]. split; [exact Y | lia]. }
  destruct (dp_zero T y) eqn:ZY.
  { apply (returns_ok _ _ 1 x); [rewrite plus_S, ZX, ZY; reflexivity|]. split; [exact X | lia]. }
  assert (forall p q, dchain p -> dchain q -> dsum q = false -> (dterms p + dterms q = dterms x + dterms y)%nat ->
    (forall n, plus T (S n) x y = match p, q with
      | DCalc a, DCalc b => bind (cadd T n a b) (fun c => Ok (DCalc c))
      | DCalc (CVal a), DLeaf b => plus T n (DLeaf a) q
      | DCalc c, DLeaf b => Ok (DCalc (CSum c (CVal b)))
      | DLeaf a, DCalc (CVal b) => plus T n p (DLeaf b)
      | DLeaf a, DCalc c => Ok (DCalc (CSum (CVal a) c))
      | DLeaf a, DLeaf b => Ok (DCalc (CSum (CVal a) (CVal b)))
      end) -> returns (fun n => plus T n x y) (dgood (dterms x + dterms y))) as G.
  { clear ZX ZY. intros p q P Q NQ E H.
    assert (forall a b, p = DCalc (CVal a) \/ p = DLeaf a -> q = DCalc (CVal b) \/ q = DLeaf b ->
      (forall n, plus T (S n) x y = plus T n (DLeaf a) (DLeaf b)) -> returns (fun n => plus T n x y) (dgood (dterms x + dterms y))) as V.
    { intros a b A B F. assert (dterms p = 1 /\ dterms q = 1)%nat as [D1 D2] by (destruct A, B; subst; split; reflexivity).
      assert (exists r, plus T 1 (DLeaf a) (DLeaf b) = Ok r /\ dgood 2 r) as (r & R1 & R2).
      { rewrite plus_S. destruct (dp_zero T (DLeaf a)); [eexists; split; [reflexivity | split; [exact I | cbn; lia]]|].
        destruct (dp_zero T (DLeaf b)); [eexists; split; [reflexivity | split; [exact I | cbn; lia]]|].
        destruct (sign_negative (dp_sign T (DLeaf a)) && sign_positive (dp_sign T (DLeaf b)));
          (eexists; split; [reflexivity | split; [cbn; repeat split; exact I | cbn; lia]]). }
      apply (returns_ok _ _ 2 r); [rewrite F; exact R1|]. destruct R2. split; [assumption | lia]. }
    assert (forall d, (forall n, plus T (S n) x y = Ok d) -> dgood (dterms x + dterms y) d ->
      returns (fun n => plus T n x y) (dgood (dterms x + dterms y))) as W.
    { intros d F D. apply (returns_ok _ _ 1 d); [apply F | exact D]. }
    destruct p as [p | p], q as [q | q].
    - apply (W _ H). split; [cbn; repeat split; exact I | cbn [dterms terms] in *; lia].
    - destruct q; try (apply (W _ H); split; [cbn [dchain chain] in *; tauto | cbn [dterms terms] in *; lia]).
      apply (V p l); [right | left | exact H]; reflexivity.
    - destruct p; try (apply (W _ H); split; [cbn [dchain chain sum] in *; tauto | cbn [dterms terms] in *; lia]).
      apply (V l q); [left | right | exact H]; reflexivity.
    - assert (forall n, plus T (S n) x y = bind (cadd T n p q) (fun c => Ok (DCalc c))) as H'
        by (intros n; rewrite H; destruct p; reflexivity).
      cbn [dterms dchain dsum] in *. destruct (IH p q P Q NQ ltac:(lia)) as (n & N1 & N2). exists (S n). rewrite H'.
      destruct (cadd T n p q) as [c | |]; cbn [bind].
      + split; [discriminate|]. intros a A. injection A as <-. destruct (N2 c eq_refl). split; [assumption | cbn [dterms]; lia].
      + split; [discriminate | intros; discriminate].
      + contradiction. }
  destruct (sign_negative (dp_sign T x) && sign_positive (dp_sign T y)) eqn:SW.
  - apply (G y x); try assumption; try lia.
    + apply dsum_sign. intros Z. rewrite Z in SW. discriminate.
    + intros n. rewrite plus_S, ZX, ZY, SW. reflexivity.
  - apply (G x y); try assumption; try lia. intros n. rewrite plus_S, ZX, ZY, SW. reflexivity.
Qed.

Lemma merge_returns : forall m,
  (forall a b, chain a -> chain b -> sum b = false -> (terms a + terms b <= m)%nat ->
     returns (fun n => cadd T n a b) (cgood (terms a + terms b))) ->
  forall l c, chain c -> (terms c <= m)%nat ->
    returns (fun n => merge T n (DCalc c) (DLeaf l)) (fun r => match r with Some d => dgood (terms c) d | None => True end).
Proof.
  intros m IH l c. induction c; intros C M; try (apply (returns_ok _ _ 1 None); [reflexivity | exact I]).
  - destruct (ladd T l0 l) as [k|] eqn:E.
    + apply (returns_ok _ _ 2 (Some (DLeaf k))); [cbn [merge]; rewrite E; reflexivity | split; [exact I | cbn; lia]].
    + apply (returns_ok _ _ 2 None); [cbn [merge]; rewrite E; reflexivity | exact I].
  - cbn [chain terms] in *. destruct C as (C1 & S2 & C2). pose proof (sum_terms _ S2) as T2.
    destruct (IHc1 C1 ltac:(lia)) as (n1 & N1 & G1). destruct (IHc2 C2 ltac:(lia)) as (n2 & N2 & G2).
    destruct (merge T n1 (DCalc c1) (DLeaf l)) as [[r|] | |] eqn:E1.
    + destruct (G1 _ eq_refl) as [R1 R2].
      destruct (plus_returns m IH r (DCalc c2) R1 C2 S2 ltac:(cbn [dterms]; lia)) as (n3 & N3 & G3).
      exists (S (Nat.max n1 n3)).
      assert (merge T (S (Nat.max n1 n3)) (DCalc (CSum c1 c2)) (DLeaf l) =
        bind (plus T n3 r (DCalc c2)) (fun s => Ok (Some s))) as E.
      { cbn [merge]. rewrite (merge_mono n1) by (try lia; rewrite E1; discriminate). rewrite E1. cbn [bind].
        rewrite (plus_mono n3) by (try lia; exact N3). reflexivity. }
      rewrite E. destruct (plus T n3 r (DCalc c2)) as [d | |]; cbn [bind].
      * split; [discriminate|]. intros a A. injection A as <-. destruct (G3 d eq_refl). split; [assumption | cbn [dterms] in *; lia].
      * split; [discriminate | intros; discriminate].
      * contradiction.
    + destruct (merge T n2 (DCalc c2) (DLeaf l)) as [[r|] | |] eqn:E2.
      * destruct (G2 _ eq_refl) as [R1 R2].
        assert (dsum r = false) as RS.
        { destruct c2; try discriminate; destruct n2 as [|n2]; try discriminate; cbn [merge] in E2; try discriminate.
          destruct n2 as [|n2]; try discriminate. cbn [merge] in E2. destruct (ladd T l0 l); try discriminate. injection E2 as <-. reflexivity. }
        destruct (plus_returns m IH (DCalc c1) r C1 R1 RS ltac:(cbn [dterms]; lia)) as (n3 & N3 & G3).
        exists (S (Nat.max n1 (Nat.max n2 n3))).
        assert (merge T (S (Nat.max n1 (Nat.max n2 n3))) (DCalc (CSum c1 c2)) (DLeaf l) =
          bind (plus T n3 (DCalc c1) r) (fun s => Ok (Some s))) as E.
        { cbn [merge]. rewrite (merge_mono n1) by (try lia; rewrite E1; discriminate). rewrite E1. cbn [bind].
          rewrite (merge_mono n2) by (try lia; rewrite E2; discriminate). rewrite E2. cbn [bind].
          rewrite (plus_mono n3) by (try lia; exact N3). reflexivity. }
        rewrite E. destruct (plus T n3 (DCalc c1) r) as [d | |]; cbn [bind].
        -- split; [discriminate|]. intros a A. injection A as <-. destruct (G3 d eq_refl). split; [assumption | cbn [dterms] in *; lia].
        -- split; [discriminate | intros; discriminate].
        -- contradiction.
      * apply (returns_ok _ _ (S (Nat.max n1 n2)) None); [|exact I]. cbn [merge].
        rewrite (merge_mono n1) by (try lia; rewrite E1; discriminate). rewrite E1. cbn [bind].
        rewrite (merge_mono n2) by (try lia; rewrite E2; discriminate). rewrite E2. reflexivity.
      * exists (S (Nat.max n1 n2)). cbn [merge].
        rewrite (merge_mono n1) by (try lia; rewrite E1; discriminate). rewrite E1. cbn [bind].
        rewrite (merge_mono n2) by (try lia; rewrite E2; discriminate). rewrite E2. cbn [bind].
        split; [discriminate | intros; discriminate].
      * contradiction.
    + exists (S n1). cbn [merge]. rewrite E1. cbn [bind]. split; [discriminate | intros; discriminate].
    + contradiction.
Qed.

Lemma cadd_returns : forall m a b, chain a -> chain b -> sum b = false -> (terms a + terms b <= m)%nat ->
  returns (fun n => cadd T n a b) (cgood (terms a + terms b)).
Proof.
  induction m as [|m IH]; intros a b A B NB M; [pose proof (terms_pos a); lia|].
  assert (cgood (terms a + terms b) (CSum a b)) as P by (split; [cbn; tauto | cbn; lia]).
  assert ((forall n, cadd T (S n) a b = Ok (CSum a b)) -> returns (fun n => cadd T n a b) (cgood (terms a + terms b))) as PLAIN.
  { intros H. apply (returns_ok _ _ 1 (CSum a b)); [apply H | exact P]. }
  destruct b; try discriminate.
  - destruct a; try (apply PLAIN; reflexivity).
    + (* value + value *)
      assert (exists r, dadd T 2 (DLeaf l0) (DLeaf l) = Ok r /\ dgood 2 r) as (r & R1 & R2).
      { cbn [dadd merge]. destruct (ladd T l0 l) as [k|]; cbn [option_map bind].
        - eexists. split; [reflexivity | split; [exact I | cbn; lia]].
        - rewrite plus_S. destruct (dp_zero T (DLeaf l0)); [eexists; split; [reflexivity | split; [exact I | cbn; lia]]|].
          destruct (dp_zero T (DLeaf l)); [eexists; split; [reflexivity | split; [exact I | cbn; lia]]|].
          destruct (sign_negative (dp_sign T (DLeaf l0)) && sign_positive (dp_sign T (DLeaf l)));
            (eexists; split; [reflexivity | split; [cbn; repeat split; exact I | cbn; lia]]). }
      apply (returns_ok _ _ 3 (into r)); [change (bind (dadd T 2 (DLeaf l0) (DLeaf l)) (fun d => Ok (into d)) = Ok (into r));
        rewrite R1; reflexivity|].
      destruct r, R2; split; try assumption; cbn; lia.
    + (* sum + value *)
      destruct (flexible T) eqn:F.
      2: { exists 1%nat. cbn [cadd]. rewrite F. split; [discriminate | intros; discriminate]. }
      set (a := CSum a1 a2) in *.
      destruct (merge_returns m IH l a A ltac:(cbn [terms] in *; lia)) as (n1 & N1 & G1).
      assert (exists n, dadd T n (DCalc a) (DLeaf l) <> Loop /\ forall d, dadd T n (DCalc a) (DLeaf l) = Ok d -> dgood (terms a + 1) d) as (n & N & G).
      { destruct (merge T n1 (DCalc a) (DLeaf l)) as [[r|] | |] eqn:E1.
        - exists (S n1). cbn [dadd]. rewrite E1. cbn [bind]. split; [discriminate|]. intros d D. injection D as <-.
          destruct (G1 _ eq_refl). split; [assumption | lia].
        - exists (S (Nat.max n1 1)). cbn [dadd]. rewrite (merge_mono n1) by (try lia; rewrite E1; discriminate).
          rewrite E1. cbn [bind].
          assert (exists r, plus T 1 (DCalc a) (DLeaf l) = Ok r /\ dgood (terms a + 1) r) as (r & R1 & R2).
          { rewrite plus_S. cbn [dp_zero]. destruct (Qeq_bool (lnum T l) 0); [eexists; split; [reflexivity|]; split; [exact A | cbn; lia]|].
            cbn. eexists. split; [reflexivity|]. split; [cbn [dchain chain sum]; split; [exact A | split; [reflexivity | exact I]] | cbn; lia]. }
          rewrite (plus_mono 1) by (try lia; rewrite R1; discriminate). rewrite R1. split; [discriminate|].
          intros d D. injection D as <-. exact R2.
        - exists (S n1). cbn [dadd]. rewrite E1. split; [discriminate | intros; discriminate].
        - contradiction. }
      exists (S n). assert (cadd T (S n) a (CVal l) = bind (dadd T n (DCalc a) (DLeaf l)) (fun d => Ok (into d))) as E
        by (unfold a; cbn [cadd]; rewrite F; reflexivity).
      rewrite E. destruct (dadd T n (DCalc a) (DLeaf l)) as [d | |]; cbn [bind].
      * split; [discriminate|]. intros c C. injection C as <-. destruct (G d eq_refl). destruct d; (split; [assumption | assumption]).
      * split; [discriminate | intros; discriminate].
      * contradiction.
  - destruct a; try (apply PLAIN; reflexivity).
    + apply (returns_ok _ _ 1 (CNum (n0 + n))); [reflexivity | split; [exact I | cbn; lia]].
    + cbn [chain] in A. destruct A as (A1 & S2 & A2).
      destruct a1; try (eapply (returns_ok _ _ 1%nat); [reflexivity|]; solve [split; [cbn in *; tauto | cbn in *; lia]]);
        destruct a2; (eapply (returns_ok _ _ 1%nat); [reflexivity|]); (split; [cbn in *; tauto | cbn in *; lia]).
  - destruct a; apply PLAIN; reflexivity.
  - destruct a; apply PLAIN; reflexivity.
  - destruct a; apply PLAIN; reflexivity.
  - destruct a; apply PLAIN; reflexivity.
  - destruct a; apply PLAIN; reflexivity.
  - destruct a; apply PLAIN; reflexivity.
  - destruct a; apply PLAIN; reflexivity.
  - destruct a; apply PLAIN; reflexivity.
  - destruct a; apply PLAIN; reflexivity.
  - destruct a; apply PLAIN; reflexivity.
  - destruct a; apply PLAIN; reflexivity.
Qed.

Context (root : Q -> Q).
Lemma all_ok_mono : forall {A B : Type} (f g : A -> out B) l, Forall (fun a => f a <> Loop -> g a = f a) l ->
  all_ok f l <> Loop -> all_ok g l = all_ok f l.
Proof.
  intros A B f g l H. induction H as [|a l Ha H IH]; intros N; [reflexivity|]. cbn [all_ok] in *.
  apply bind_mono; [exact Ha | | exact N]. intros b _ N'. apply bind_mono; [exact IH | reflexivity | exact N'].
Qed.
Lemma simp_mono : forall n m e, (n <= m)%nat -> simp T root n e <> Loop -> simp T root m e = simp T root n e.
Proof.
  intros n m e H. induction e using expr_induction; cbn [simp]; intros N; try reflexivity;
    try (apply bind_mono; [assumption | | exact N]; intros; reflexivity);
    try (apply bind_mono; [assumption | | exact N]; intros ? _ N'; apply bind_mono; [assumption | | exact N']; intros ? _ N'';
         first [reflexivity | apply cadd_mono; assumption]).
  - apply IHe. exact N.
  - apply bind_mono; [intros N'; apply all_ok_mono; assumption | | exact N]. reflexivity.
  - apply bind_mono; [intros N'; apply all_ok_mono; assumption | | exact N]. reflexivity.
  - apply bind_mono; [assumption | | exact N]; intros ? _ N'. apply bind_mono; [assumption | | exact N']; intros ? _ N''.
    apply bind_mono; [assumption | | exact N'']; reflexivity.
  - apply bind_mono; [intros N'; apply all_ok_mono; assumption | | exact N]. reflexivity.
Qed.

(** ** Expressions whose sums are flat *)
Lemma chain_function : forall c, is_function c = true -> chain c /\ sum c = false.
Proof. intros [] H; try discriminate; split; try reflexivity; exact I. Qed.
Lemma cmul_sum : forall k c, chain c -> sum (cmul T k c) = sum c.
Proof.
  intros k c C. unfold cmul. destruct c; destruct (Qeq_bool k 1); try reflexivity. fold (cmul T). cbn [chain] in C.
  destruct (Qeq_bool (n * k) 1); [|reflexivity]. destruct C as [_ ->]. reflexivity.
Qed.
Lemma cmul_chain : forall k c, chain c -> chain (cmul T k c).
Proof.
  intros k c. induction c; intros C; cbn [cmul]; destruct (Qeq_bool k 1) eqn:K; try exact C; try exact I;
    try (split; reflexivity).
  - cbn [chain] in *. destruct C as (C1 & S & C2). split; [apply IHc1; exact C1|]. split; [rewrite cmul_sum; assumption | apply IHc2; exact C2].
  - destruct (Qeq_bool (n * k) 1); [|exact C]. apply chain_function. apply C.
Qed.
Definition chained (e : expr (leaf T)) (c : calc (leaf T)) : Prop := chain c /\ (is_sum e = false -> sum c = false).
Lemma returns_bind : forall {A B : Type} (f : nat -> out A) (g : nat -> A -> out B) (P : A -> Prop) (R : B -> Prop),
  (forall n m, (n <= m)%nat -> f n <> Loop -> f m = f n) ->
  (forall a n m, (n <= m)%nat -> g n a <> Loop -> g m a = g n a) ->
  returns f P -> (forall a, P a -> returns (fun n => g n a) R) -> returns (fun n => bind (f n) (g n)) R.
Proof.
  intros A B f g P R Mf Mg (n & N & H) G. destruct (f n) as [a | |] eqn:E.
  - destruct (G a (H a eq_refl)) as (m & M & K). exists (Nat.max n m).
    rewrite (Mf n (Nat.max n m)) by (try lia; rewrite E; discriminate). rewrite E. cbn [bind].
    rewrite (Mg a m (Nat.max n m)) by (try lia; exact M). split; [exact M | exact K].
  - exists n. rewrite E. split; [discriminate | intros; discriminate].
  - contradiction.
Qed.
Lemma returns_const : forall {A : Type} (a : A) (P : A -> Prop), P a -> returns (fun _ => Ok a) P.
Proof. intros A a P H. apply (returns_ok _ _ 0%nat a); [reflexivity | exact H]. Qed.
Lemma all_ok_returns : forall es,
  Forall (fun e => returns (fun n => simp T root n e) (chained e)) es ->
  returns (fun n => all_ok (simp T root n) es) (Forall2 chained es).
Proof.
  intros es H. induction H as [|e es He H IH].
  - apply returns_const. constructor.
  - cbn [all_ok].
    apply (returns_bind (fun n => simp T root n e) (fun n b => bind (all_ok (simp T root n) es) (fun bs => Ok (b :: bs))) (chained e)).
    + intros n m L N. apply simp_mono; assumption.
    + intros a n m L N. apply bind_mono; [|reflexivity | exact N]. intros N'. apply all_ok_mono; [|exact N'].
      clear - L. induction es; constructor; [|assumption]. intros N. apply simp_mono; assumption.
    + exact He.
    + intros c C. apply (returns_bind (fun n => all_ok (simp T root n) es) (fun _ bs => Ok (c :: bs)) (Forall2 chained es)).
      * intros n m L N. apply all_ok_mono; [|exact N]. clear - L. induction es; constructor; [|assumption]. intros N. apply simp_mono; assumption.
      * reflexivity.
      * exact IH.
      * intros cs CS. apply returns_const. constructor; assumption.
Qed.
Lemma put_arg_in : forall better arg cs c, List.In c (put_arg T better arg cs) -> c = arg \/ List.In c cs.
Proof.
  intros better arg cs c. induction cs as [|b cs IH]; cbn [put_arg]; intros H.
  - destruct H as [H | []]. left. symmetry. exact H.
  - destruct (compare_args T arg b) as [o|].
    + destruct (same_comparison o better); destruct H as [H | H]; [left; symmetry; exact H | right; right; exact H | right; left; exact H | right; right; exact H].
    + destruct H as [H | H]; [right; left; exact H|]. apply IH in H. destruct H; [left | right; right]; assumption.
Qed.
Lemma reduce_in : forall better cs c, List.In c (reduce_args T better cs) -> List.In c cs.
Proof.
  intros better cs c. unfold reduce_args. assert (forall acc, List.In c (fold_left (fun reduced arg => put_arg T better arg reduced) cs acc) ->
    List.In c cs \/ List.In c acc) as G.
  { induction cs as [|d cs IH]; intros acc H; cbn [fold_left] in H; [right; exact H|]. apply IH in H. destruct H as [H | H].
    - left. right. exact H.
    - apply put_arg_in in H. destruct H as [-> | H]; [left; left; reflexivity | right; exact H]. }
  intros H. apply G in H. destruct H as [H | []]. exact H.
Qed.
Lemma chained_in : forall es cs c, Forall2 chained es cs -> List.In c cs -> chain c /\ (existsb is_sum es = false -> sum c = false).
Proof.
  intros es cs c H I. induction H as [|e d es cs E H IH]; [contradiction|]. cbn [existsb]. destruct I as [<- | I].
  - destruct E as [E1 E2]. split; [exact E1|]. intros X. apply orb_false_iff in X. apply E2. apply X.
  - destruct (IH I) as [H1 H2]. split; [exact H1|]. intros X. apply orb_false_iff in X. apply H2. apply X.
Qed.
Lemma min_max_chained : forall better f es cs, (forall cs, is_function (f cs) = true) -> Forall2 chained es cs ->
  chain (min_max T better f cs) /\ (existsb is_sum es = false -> sum (min_max T better f cs) = false).
Proof.
  intros better f es cs F H. unfold min_max. pose proof (fun c => reduce_in better cs c) as I.
  destruct (reduce_args T better cs) as [|c [|d ds]].
  - destruct (chain_function (f []) (F _)). split; [assumption | intros; assumption].
  - apply (chained_in es cs c H). apply I. left. reflexivity.
  - destruct (chain_function (f (c :: d :: ds)) (F _)). split; [assumption | intros; assumption].
Qed.
Lemma apply_op_chain : forall a b f c, apply_op T a b f = Some c -> chain c /\ sum c = false.
Proof.
  intros a b f c H. destruct a; try discriminate; destruct b; try discriminate; cbn in H.
  - destruct (lop T l l0 f); [|discriminate]. injection H as <-. split; [exact I | reflexivity].
  - injection H as <-. split; [exact I | reflexivity].
Qed.
Lemma apply_map_chain : forall a f c, apply_map T a f = Some c -> chain c /\ sum c = false.
Proof.
  intros a f c H. destruct a; try discriminate; cbn in H.
  - destruct (lmap T l f); [|discriminate]. injection H as <-. split; [exact I | reflexivity].
  - injection H as <-. split; [exact I | reflexivity].
Qed.
Lemma clamp_chain : forall a b c, chain (clamp T a b c) /\ sum (clamp T a b c) = false.
Proof.
  intros a b c. unfold clamp. destruct (compare_args T b c) as [o|] eqn:E; [|split; [exact I | reflexivity]]. cbv zeta.
  assert (forall x y o, compare_args T x y = Some o -> (chain x /\ sum x = false) /\ (chain y /\ sum y = false)) as V.
  { intros x y o' H. destruct x; try discriminate; destruct y; try discriminate; repeat split; exact I. }
  destruct (V _ _ _ E). destruct (compare_args T (match o with Gt => c | _ => b end) a) as [o2|] eqn:E2; [|split; [exact I | reflexivity]].
  destruct (V _ _ _ E2). destruct o2; assumption.
Qed.
Lemma hypot_chained : forall es cs, Forall2 chained es cs ->
  chain (match hypot T root cs with Some c => c | None => FHypot cs end) /\
  (existsb is_sum es = false -> sum (match hypot T root cs with Some c => c | None => FHypot cs end) = false).
Proof.
  intros es cs H. destruct (hypot T root cs) as [c|] eqn:E; [|split; [exact I | reflexivity]].
  destruct cs as [|a [|b [|d ds]]]; try discriminate.
  - injection E as <-. apply (chained_in es [a] a H). left. reflexivity.
  - cbn [hypot] in E. destruct (apply_op_chain _ _ _ _ E). split; [assumption | intros; assumption].
  - change (hypot T root (a :: b :: d :: ds)) with
      (match apply_map T a (fun v => v * v) with
       | None => None
       | Some first => match add_squares T first (b :: d :: ds) with Some sum => apply_map T sum root | None => None end
       end) in E.
    destruct (apply_map T a (fun v => v * v)) as [f|]; [|discriminate]. destruct (add_squares T f (b :: d :: ds)) as [g|]; [|discriminate].
    destruct (apply_map_chain _ _ _ E). split; [assumption | intros; assumption].
Qed.
Lemma product_chain : forall a b c, product T a b = Ok c -> chain a -> chain b ->
  chain c /\ (sum a || sum b = false -> sum c = false).
Proof.
  intros a b c H A B.
  assert (forall v d, chain d -> Ok (cmul T v d) = Ok c -> chain c /\ (sum d = false -> sum c = false)) as D.
  { intros v d X E. injection E as <-. split; [apply cmul_chain; exact X|]. rewrite cmul_sum by exact X. tauto. }
  assert (forall x y, x || y = false -> x = false /\ y = false) as O by (intros x y X; apply orb_false_iff; exact X).
  unfold product in H.
  destruct b; try (destruct (D _ _ A H) as [D1 D2]; split; [exact D1 | intros X; apply D2; apply (O _ _ X)]);
    destruct a; try discriminate;
    (destruct (D _ _ B H) as [D1 D2]; split; [exact D1 | intros X; apply D2; apply (O _ _ X)]).
Qed.
Lemma flat_list : forall es : list (expr (leaf T)), fold_right and True (map flat es) -> Forall flat es.
Proof. induction es as [|e es IH]; intros H; [constructor|]. destruct H as [H1 H2]. constructor; [exact H1 | apply IH; exact H2]. Qed.
Lemma forall_mp : forall {A : Type} (P R : A -> Prop) l, Forall P l -> Forall (fun a => P a -> R a) l -> Forall R l.
Proof. intros A P R l H. induction H; intros G; constructor; inversion G; subst; auto. Qed.

Theorem simp_returns : forall e, flat e -> returns (fun n => simp T root n e) (chained e).
Proof.
  assert (forall e n m, (n <= m)%nat -> simp T root n e <> Loop -> simp T root m e = simp T root n e) as MONO
    by (intros e n m; apply simp_mono).
  assert (forall es n m, (n <= m)%nat -> all_ok (simp T root n) es <> Loop -> all_ok (simp T root m) es = all_ok (simp T root n) es) as MONOS.
  { intros es n m L N. apply all_ok_mono; [|exact N]. clear N. induction es; constructor; [|assumption]. apply MONO. exact L. }
  intros e. induction e using expr_induction; intros F; cbn [flat] in F; cbn [simp].
  - apply returns_const. split; [exact I | reflexivity].
  - apply returns_const. split; [exact I | reflexivity].
  - destruct F as (F1 & F2 & F3).
    apply (returns_bind (fun n => simp T root n e1) (fun n a => bind (simp T root n e2) (fun b => cadd T n a b)) (chained e1)); [apply MONO | | apply IHe1; exact F1 |].
    { intros a n m L N. apply bind_mono; [apply MONO; exact L | | exact N]. intros b _ N'. apply cadd_mono; assumption. }
    intros a [A1 A2]. apply (returns_bind (fun n => simp T root n e2) (fun n b => cadd T n a b) (chained e2)); [apply MONO | | apply IHe2; exact F2 |].
    { intros b n m L N. apply cadd_mono; assumption. }
    intros b [B1 B2]. destruct (cadd_returns _ a b A1 B1 (B2 F3) (le_n _)) as (n & N & G). exists n. split; [exact N|].
    intros c C. destruct (G c C) as [G1 _]. split; [exact G1 | discriminate].
  - destruct F as (F1 & F2 & F3).
    apply (returns_bind (fun n => simp T root n e1) (fun n a => bind (simp T root n e2) (fun b => cadd T n a (cmul T (-1) b))) (chained e1)); [apply MONO | | apply IHe1; exact F1 |].
    { intros a n m L N. apply bind_mono; [apply MONO; exact L | | exact N]. intros b _ N'. apply cadd_mono; assumption. }
    intros a [A1 A2]. apply (returns_bind (fun n => simp T root n e2) (fun n b => cadd T n a (cmul T (-1) b)) (chained e2)); [apply MONO | | apply IHe2; exact F2 |].
    { intros b n m L N. apply cadd_mono; assumption. }
    intros b [B1 B2]. assert (sum (cmul T (-1) b) = false) as NS by (rewrite cmul_sum by exact B1; apply B2; exact F3).
    destruct (cadd_returns _ a (cmul T (-1) b) A1 (cmul_chain _ _ B1) NS (le_n _)) as (n & N & G). exists n. split; [exact N|].
    intros c C. destruct (G c C) as [G1 _]. split; [exact G1 | discriminate].
  - destruct F as (F1 & F2).
    apply (returns_bind (fun n => simp T root n e1) (fun n a => bind (simp T root n e2) (fun b => product T a b)) (chained e1)); [apply MONO | | apply IHe1; exact F1 |].
    { intros a n m L N. apply bind_mono; [apply MONO; exact L | reflexivity | exact N]. }
    intros a [A1 A2]. apply (returns_bind (fun n => simp T root n e2) (fun n b => product T a b) (chained e2)); [apply MONO | reflexivity | apply IHe2; exact F2 |].
    intros b [B1 B2]. exists 0%nat. split.
    { unfold product. destruct b; try discriminate; destruct a; discriminate. }
    intros c C. destruct (product_chain _ _ _ C A1 B1) as [C1 C2]. split; [exact C1|]. cbn [is_sum]. intros X.
    apply orb_false_iff in X. apply C2. rewrite A2, B2 by apply X. reflexivity.
  - destruct F as (F1 & F2).
    apply (returns_bind (fun n => simp T root n e1) (fun n a => bind (simp T root n e2) (fun b => quotient T a b)) (chained e1)); [apply MONO | | apply IHe1; exact F1 |].
    { intros a n m L N. apply bind_mono; [apply MONO; exact L | reflexivity | exact N]. }
    intros a [A1 A2]. apply (returns_bind (fun n => simp T root n e2) (fun n b => quotient T a b) (chained e2)); [apply MONO | reflexivity | apply IHe2; exact F2 |].
    intros b [B1 B2]. exists 0%nat. unfold quotient. destruct b; try (split; [discriminate | intros; discriminate]).
    destruct (Qeq_bool n 0); (split; [discriminate|]); intros c C; [discriminate|]. injection C as <-.
    split; [apply cmul_chain; exact A1|]. intros X. rewrite cmul_sum by exact A1. apply A2. exact X.
  - destruct (IHe F) as (n & N & G). exists n. split; [exact N|]. exact G.
  - apply flat_list in F.
    apply (returns_bind (fun n => all_ok (simp T root n) es)
      (fun _ cs => match cs with [] => Err | _ => Ok (min_max T Lt FMin cs) end) (Forall2 chained es)).
    + apply MONOS.
    + reflexivity.
    + apply all_ok_returns. apply (forall_mp _ _ _ F H).
    + intros [|c cs] CS; [exists 0%nat; split; [discriminate | intros; discriminate]|]. apply returns_const.
      apply (min_max_chained Lt FMin es); [reflexivity | exact CS].
  - apply flat_list in F.
    apply (returns_bind (fun n => all_ok (simp T root n) es)
      (fun _ cs => match cs with [] => Err | _ => Ok (min_max T Gt FMax cs) end) (Forall2 chained es)).
    + apply MONOS.
    + reflexivity.
    + apply all_ok_returns. apply (forall_mp _ _ _ F H).
    + intros [|c cs] CS; [exists 0%nat; split; [discriminate | intros; discriminate]|]. apply returns_const.
      apply (min_max_chained Gt FMax es); [reflexivity | exact CS].
  - destruct F as (F1 & F2 & F3).
    apply (returns_bind (fun n => simp T root n e1)
      (fun n a => bind (simp T root n e2) (fun b => bind (simp T root n e3) (fun c => Ok (clamp T a b c)))) (chained e1)); [apply MONO | | apply IHe1; exact F1 |].
    { intros a n m L N. apply bind_mono; [apply MONO; exact L | | exact N]. intros b _ N'. apply bind_mono; [apply MONO; exact L | reflexivity | exact N']. }
    intros a _. apply (returns_bind (fun n => simp T root n e2)
      (fun n b => bind (simp T root n e3) (fun c => Ok (clamp T a b c))) (chained e2)); [apply MONO | | apply IHe2; exact F2 |].
    { intros b n m L N. apply bind_mono; [apply MONO; exact L | reflexivity | exact N]. }
    intros b _. apply (returns_bind (fun n => simp T root n e3) (fun n c => Ok (clamp T a b c)) (chained e3)); [apply MONO | reflexivity | apply IHe3; exact F3 |].
    intros c _. apply returns_const. destruct (clamp_chain a b c). split; [assumption | intros; assumption].
  - destruct F as (F1 & F2).
    apply (returns_bind (fun n => simp T root n e1) (fun n a => bind (simp T root n e2) (fun b => Ok (math_fn T (round s) (FRound s) a b))) (chained e1)); [apply MONO | | apply IHe1; exact F1 |].
    { intros a n m L N. apply bind_mono; [apply MONO; exact L | reflexivity | exact N]. }
    intros a _. apply (returns_bind (fun n => simp T root n e2) (fun n b => Ok (math_fn T (round s) (FRound s) a b)) (chained e2)); [apply MONO | reflexivity | apply IHe2; exact F2 |].
    intros b _. apply returns_const. unfold math_fn. destruct (apply_op T a b (round s)) as [c|] eqn:E; [|split; [exact I | reflexivity]].
    destruct (apply_op_chain _ _ _ _ E). split; [assumption | intros; assumption].
  - destruct F as (F1 & F2).
    apply (returns_bind (fun n => simp T root n e1) (fun n a => bind (simp T root n e2) (fun b => Ok (math_fn T qrem FRem a b))) (chained e1)); [apply MONO | | apply IHe1; exact F1 |].
    { intros a n m L N. apply bind_mono; [apply MONO; exact L | reflexivity | exact N]. }
    intros a _. apply (returns_bind (fun n => simp T root n e2) (fun n b => Ok (math_fn T qrem FRem a b)) (chained e2)); [apply MONO | reflexivity | apply IHe2; exact F2 |].
    intros b _. apply returns_const. unfold math_fn. destruct (apply_op T a b qrem) as [c|] eqn:E; [|split; [exact I | reflexivity]].
    destruct (apply_op_chain _ _ _ _ E). split; [assumption | intros; assumption].
  - destruct F as (F1 & F2).
    apply (returns_bind (fun n => simp T root n e1) (fun n a => bind (simp T root n e2) (fun b => Ok (math_fn T modulo FMod a b))) (chained e1)); [apply MONO | | apply IHe1; exact F1 |].
    { intros a n m L N. apply bind_mono; [apply MONO; exact L | reflexivity | exact N]. }
    intros a _. apply (returns_bind (fun n => simp T root n e2) (fun n b => Ok (math_fn T modulo FMod a b)) (chained e2)); [apply MONO | reflexivity | apply IHe2; exact F2 |].
    intros b _. apply returns_const. unfold math_fn. destruct (apply_op T a b modulo) as [c|] eqn:E; [|split; [exact I | reflexivity]].
    destruct (apply_op_chain _ _ _ _ E). split; [assumption | intros; assumption].
  - apply (returns_bind (fun n => simp T root n e) (fun n c => Ok (abs_fn T c)) (chained e)); [apply MONO | reflexivity | apply IHe; exact F |].
    intros c _. apply returns_const. unfold abs_fn. destruct (apply_map T c Qabs) as [d|] eqn:E; [|split; [exact I | reflexivity]].
    destruct (apply_map_chain _ _ _ E). split; [assumption | intros; assumption].
  - apply (returns_bind (fun n => simp T root n e) (fun n c => Ok (sign_fn T c)) (chained e)); [apply MONO | reflexivity | apply IHe; exact F |].
    intros c _. apply returns_const. unfold sign_fn. destruct c; try (split; [exact I | reflexivity]).
    destruct (lmap T l qsign); (split; [exact I | reflexivity]).
  - apply flat_list in F.
    apply (returns_bind (fun n => all_ok (simp T root n) es)
      (fun _ cs => match cs with [] => Err | _ => Ok (match hypot T root cs with Some c => c | None => FHypot cs end) end) (Forall2 chained es)).
    + apply MONOS.
    + reflexivity.
    + apply all_ok_returns. apply (forall_mp _ _ _ F H).
    + intros [|c cs] CS; [exists 0%nat; split; [discriminate | intros; discriminate]|]. apply returns_const.
      apply (hypot_chained es (c :: cs) CS).
Qed.
End Fuel.
