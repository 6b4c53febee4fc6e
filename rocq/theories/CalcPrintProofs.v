(** * Printing a math function keeps its value *)
From Coq Require Import List Bool ZArith QArith Qround Qabs Qminmax Lqa Lia Setoid.
From Verif Require Import CalcModel CalcSpec CalcArithProofs CalcProofs CalcFuelProofs.
Import ListNotations.
Local Open Scope Q_scope.

(** ** The reader *)
Section Reader.
Context {L : Type}.
Implicit Types (ts rest : list (token L)) (e acc : expr L).
Definition strip (f : fname) ts : strategy * list (token L) :=
  match f, ts with NRound, TStrategy s :: TComma :: ts => (s, ts) | _, _ => (SNearest, ts) end.
Lemma rd_sum_S : forall n ts, rd_sum (S n) ts = match rd_product n ts with Some (e, ts) => rd_sum_tail n e ts | None => None end.
Proof. reflexivity. Qed.
Lemma rd_sum_tail_S : forall n acc ts, rd_sum_tail (S n) acc ts =
  match ts with
  | TPlus :: ts => match rd_product n ts with Some (e, ts) => rd_sum_tail n (EAdd acc e) ts | None => None end
  | TMinus :: ts => match rd_product n ts with Some (e, ts) => rd_sum_tail n (ESub acc e) ts | None => None end
  | _ => Some (acc, ts)
  end.
Proof. reflexivity. Qed.
Lemma rd_product_S : forall n ts, rd_product (S n) ts = match rd_value n ts with Some (e, ts) => rd_product_tail n e ts | None => None end.
Proof. reflexivity. Qed.
Lemma rd_product_tail_S : forall n acc ts, rd_product_tail (S n) acc ts =
  match ts with
  | TTimes :: ts => match rd_value n ts with Some (e, ts) => rd_product_tail n (EMul acc e) ts | None => None end
  | TDivide :: ts => match rd_value n ts with Some (e, ts) => rd_product_tail n (EDiv acc e) ts | None => None end
  | _ => Some (acc, ts)
  end.
Proof. reflexivity. Qed.
Lemma rd_value_S : forall n ts, rd_value (S n) ts =
  match ts with
  | TVal l :: ts => Some (EVal l, ts)
  | TNum q :: ts => Some (ENum q, ts)
  | TParen :: ts => match rd_sum n ts with Some (e, TClose :: ts) => Some (e, ts) | _ => None end
  | TOpen f :: ts =>
      let '(s, ts) := strip f ts in
      match rd_args n ts with
      | Some (args, ts) => match build f s args with Some e => Some (e, ts) | None => None end
      | None => None
      end
  | _ => None
  end.
Proof. reflexivity. Qed.
Lemma rd_args_S : forall n ts, rd_args (S n) ts =
  match rd_sum n ts with
  | Some (e, TComma :: ts) => match rd_args n ts with Some (es, ts) => Some (e :: es, ts) | None => None end
  | Some (e, TClose :: ts) => Some ([e], ts)
  | _ => None
  end.
Proof. reflexivity. Qed.
Lemma rd_step : forall n,
  (forall ts r, rd_sum n ts = Some r -> rd_sum (S n) ts = Some r) /\
  (forall acc ts r, rd_sum_tail n acc ts = Some r -> rd_sum_tail (S n) acc ts = Some r) /\
  (forall ts r, rd_product n ts = Some r -> rd_product (S n) ts = Some r) /\
  (forall acc ts r, rd_product_tail n acc ts = Some r -> rd_product_tail (S n) acc ts = Some r) /\
  (forall ts r, rd_value n ts = Some r -> rd_value (S n) ts = Some r) /\
  (forall ts r, rd_args n ts = Some r -> rd_args (S n) ts = Some r).
Proof.
  induction n as [|n (I1 & I2 & I3 & I4 & I5 & I6)]; [repeat split; intros; discriminate|].
  split; [|split; [|split; [|split; [|split]]]].
  - intros ts r H. rewrite rd_sum_S in H. rewrite rd_sum_S.
    destruct (rd_product n ts) as [[e ts']|] eqn:E; [|discriminate]. rewrite (I3 _ _ E). apply I2. exact H.
  - intros acc ts r H. rewrite rd_sum_tail_S in H. rewrite rd_sum_tail_S. destruct ts as [|[] ts]; try exact H.
    + destruct (rd_product n ts) as [[e ts']|] eqn:E; [|discriminate]. rewrite (I3 _ _ E). apply I2. exact H.
    + destruct (rd_product n ts) as [[e ts']|] eqn:E; [|discriminate]. rewrite (I3 _ _ E). apply I2. exact H.
  - intros ts r H. rewrite rd_product_S in H. rewrite rd_product_S.
    destruct (rd_value n ts) as [[e ts']|] eqn:E; [|discriminate]. rewrite (I5 _ _ E). apply I4. exact H.
  - intros acc ts r H. rewrite rd_product_tail_S in H. rewrite rd_product_tail_S. destruct ts as [|[] ts]; try exact H.
    + destruct (rd_value n ts) as [[e ts']|] eqn:E; [|discriminate]. rewrite (I5 _ _ E). apply I4. exact H.
    + destruct (rd_value n ts) as [[e ts']|] eqn:E; [|discriminate]. rewrite (I5 _ _ E). apply I4. exact H.
  - intros ts r H. rewrite rd_value_S in H. rewrite rd_value_S. destruct ts as [|[] ts]; try exact H; try discriminate.
    + destruct (strip f ts) as [s ts'].
      destruct (rd_args n ts') as [[args ts'']|] eqn:E; [|discriminate]. rewrite (I6 _ _ E). exact H.
    + destruct (rd_sum n ts) as [[e ts']|] eqn:E; [|discriminate]. rewrite (I1 _ _ E). exact H.
  - intros ts r H. rewrite rd_args_S in H. rewrite rd_args_S.
    destruct (rd_sum n ts) as [[e ts']|] eqn:E; [|discriminate]. rewrite (I1 _ _ E).
    destruct ts' as [|[] ts']; try discriminate; try exact H.
    destruct (rd_args n ts') as [[es ts'']|] eqn:F; [|discriminate]. rewrite (I6 _ _ F). exact H.
Qed.
Definition mono {A B : Type} (f : nat -> A -> option B) : Prop := forall n m a b, (n <= m)%nat -> f n a = Some b -> f m a = Some b.
Lemma mono_step : forall {A B : Type} (f : nat -> A -> option B), (forall n a b, f n a = Some b -> f (S n) a = Some b) -> mono f.
Proof. intros A B f S n m a b H. induction H; intros E; [exact E|]. apply S. apply IHle. exact E. Qed.
Lemma value_mono : mono (@rd_value L).
Proof. apply mono_step. intros n. apply (rd_step n). Qed.
Lemma args_mono : mono (@rd_args L).
Proof. apply mono_step. intros n. apply (rd_step n). Qed.
Lemma sum_mono : mono (@rd_sum L).
Proof. apply mono_step. intros n. apply (rd_step n). Qed.
Lemma product_mono : mono (@rd_product L).
Proof. apply mono_step. intros n. apply (rd_step n). Qed.
Lemma sum_tail_mono : forall acc, mono (fun n => @rd_sum_tail L n acc).
Proof. intros acc. apply mono_step. intros n. apply (rd_step n). Qed.
Lemma product_tail_mono : forall acc, mono (fun n => @rd_product_tail L n acc).
Proof. intros acc. apply mono_step. intros n. apply (rd_step n). Qed.

Lemma reads_unique : forall ts e e', reads ts e -> reads ts e' -> e = e'.
Proof.
  intros ts e e' (n & N) (m & M). apply (value_mono n (Nat.max n m)) in N; [|lia]. apply (value_mono m (Nat.max n m)) in M; [|lia]. congruence.
Qed.

Definition VAL ts (r : expr L * list (token L)) : Prop := exists n, rd_value n ts = Some r.
Definition PROD ts (r : expr L * list (token L)) : Prop := exists n, rd_product n ts = Some r.
Definition PTAIL acc ts (r : expr L * list (token L)) : Prop := exists n, rd_product_tail n acc ts = Some r.
Definition SUM ts (r : expr L * list (token L)) : Prop := exists n, rd_sum n ts = Some r.
Definition STAIL acc ts (r : expr L * list (token L)) : Prop := exists n, rd_sum_tail n acc ts = Some r.
Definition ARGS ts (r : list (expr L) * list (token L)) : Prop := exists n, rd_args n ts = Some r.
Definition stop_product ts : bool := match ts with TTimes :: _ | TDivide :: _ => false | _ => true end.
Definition stop_sum ts : bool := match ts with TPlus :: _ | TMinus :: _ => false | _ => true end.

Lemma r_val : forall l ts, VAL (TVal l :: ts) (EVal l, ts).
Proof. intros l ts. exists 1%nat. reflexivity. Qed.
Lemma r_num : forall q ts, VAL (TNum q :: ts) (ENum q, ts).
Proof. intros q ts. exists 1%nat. reflexivity. Qed.
Lemma r_fun : forall f ts s ts' args rest e, strip f ts = (s, ts') -> ARGS ts' (args, rest) -> build f s args = Some e ->
  VAL (TOpen f :: ts) (e, rest).
Proof.
  intros f ts s ts' args rest e S (n & A) B. exists (Datatypes.S n). rewrite rd_value_S. rewrite S. rewrite A, B. reflexivity.
Qed.
Lemma r_product : forall ts e ts' r, VAL ts (e, ts') -> PTAIL e ts' r -> PROD ts r.
Proof.
  intros ts e ts' r (n & A) (m & B). exists (S (Nat.max n m)). rewrite rd_product_S.
  rewrite (value_mono n _ _ _ (Nat.le_max_l n m) A). apply (product_tail_mono e m _ _ _ (Nat.le_max_r n m) B).
Qed.
Lemma r_ptail_stop : forall acc ts, stop_product ts = true -> PTAIL acc ts (acc, ts).
Proof. intros acc ts H. exists 1%nat. destruct ts as [|[] ts]; try reflexivity; discriminate. Qed.
Lemma r_ptail_times : forall acc ts e ts' r, VAL ts (e, ts') -> PTAIL (EMul acc e) ts' r -> PTAIL acc (TTimes :: ts) r.
Proof.
  intros acc ts e ts' r (n & A) (m & B). exists (S (Nat.max n m)). rewrite rd_product_tail_S.
  rewrite (value_mono n _ _ _ (Nat.le_max_l n m) A). apply (product_tail_mono _ m _ _ _ (Nat.le_max_r n m) B).
Qed.
Lemma r_ptail_divide : forall acc ts e ts' r, VAL ts (e, ts') -> PTAIL (EDiv acc e) ts' r -> PTAIL acc (TDivide :: ts) r.
Proof.
  intros acc ts e ts' r (n & A) (m & B). exists (S (Nat.max n m)). rewrite rd_product_tail_S.
  rewrite (value_mono n _ _ _ (Nat.le_max_l n m) A). apply (product_tail_mono _ m _ _ _ (Nat.le_max_r n m) B).
Qed.
Lemma r_sum : forall ts e ts' r, PROD ts (e, ts') -> STAIL e ts' r -> SUM ts r.
Proof.
  intros ts e ts' r (n & A) (m & B). exists (S (Nat.max n m)). rewrite rd_sum_S.
  rewrite (product_mono n _ _ _ (Nat.le_max_l n m) A). apply (sum_tail_mono _ m _ _ _ (Nat.le_max_r n m) B).
Qed.
Lemma r_stail_stop : forall acc ts, stop_sum ts = true -> STAIL acc ts (acc, ts).
Proof. intros acc ts H. exists 1%nat. destruct ts as [|[] ts]; try reflexivity; discriminate. Qed.
Lemma r_stail_plus : forall acc ts e ts' r, PROD ts (e, ts') -> STAIL (EAdd acc e) ts' r -> STAIL acc (TPlus :: ts) r.
Proof.
  intros acc ts e ts' r (n & A) (m & B). exists (S (Nat.max n m)). rewrite rd_sum_tail_S.
  rewrite (product_mono n _ _ _ (Nat.le_max_l n m) A). apply (sum_tail_mono _ m _ _ _ (Nat.le_max_r n m) B).
Qed.
Lemma r_stail_minus : forall acc ts e ts' r, PROD ts (e, ts') -> STAIL (ESub acc e) ts' r -> STAIL acc (TMinus :: ts) r.
Proof.
  intros acc ts e ts' r (n & A) (m & B). exists (S (Nat.max n m)). rewrite rd_sum_tail_S.
  rewrite (product_mono n _ _ _ (Nat.le_max_l n m) A). apply (sum_tail_mono _ m _ _ _ (Nat.le_max_r n m) B).
Qed.
Lemma r_args_last : forall ts e rest, SUM ts (e, TClose :: rest) -> ARGS ts ([e], rest).
Proof. intros ts e rest (n & A). exists (S n). rewrite rd_args_S. rewrite A. reflexivity. Qed.
Lemma r_args_more : forall ts e ts' es rest, SUM ts (e, TComma :: ts') -> ARGS ts' (es, rest) -> ARGS ts (e :: es, rest).
Proof.
  intros ts e ts' es rest (n & A) (m & B). exists (S (Nat.max n m)). rewrite rd_args_S.
  rewrite (sum_mono n _ _ _ (Nat.le_max_l n m) A), (args_mono m _ _ _ (Nat.le_max_r n m) B). reflexivity.
Qed.
End Reader.

(** ** Trees that print well *)
Section Well.
Context (T : vtype) (lval : leaf T -> Q) (root : Q -> Q) (W : lawful T lval) (R : good_root root).
Notation ev := (ceval lval root).
Notation ee := (eval lval root).
Fixpoint well (c : calc (leaf T)) : Prop :=
  match c with
  | CVal _ | CNum _ => True
  | CSum a b | FRound _ a b | FRem a b | FMod a b => well a /\ well b
  | CProd n c => ~ n == 0 /\ is_function c = true /\ well c
  | FCalc c | FAbs c | FSign c => well c
  | FMin cs | FMax cs | FHypot cs => fold_right and True (map well cs)
  | FClamp a b c => well a /\ well b /\ well c
  end.
Definition unit_like (c : calc (leaf T)) : bool := match c with CSum _ _ | CProd _ _ => false | _ => true end.
Lemma function_unit : forall c, is_function c = true -> unit_like c = true.
Proof. intros [] H; try reflexivity; discriminate. Qed.
Lemma well_list : forall cs : list (calc (leaf T)), fold_right and True (map well cs) <-> Forall well cs.
Proof.
  induction cs as [|c cs IH]; split; intros H; cbn in *; try exact I; try constructor.
  - apply H.
  - apply IH. apply H.
  - apply (Forall_inv H).
  - apply IH. apply (Forall_inv_tail H).
Qed.
Lemma cmul_well : forall k c, ~ k == 0 -> well c -> well (cmul T k c).
Proof.
  intros k c K. induction c using calc_induction; intros H'; cbn [cmul]; destruct (Qeq_bool k 1); try exact H'; try exact I;
    try (split; [exact K | split; [reflexivity | exact H']]).
  - destruct H' as [H1 H2]. split; [apply IHc1; exact H1 | apply IHc2; exact H2].
  - destruct H' as (N & F & H'). destruct (Qeq_bool (n * k) 1); [exact H'|]. split; [|split; assumption].
    intros Z. apply Qmult_integral in Z. destruct Z; contradiction.
  - cbn [well] in *. apply IHc. exact H'.
Qed.
Lemma cmul_depth : forall k c, (depth (cmul T k c) <= S (depth c))%nat.
Proof.
  intros k c. induction c using calc_induction; cbn [cmul]; destruct (Qeq_bool k 1); cbn [depth]; try lia.
  destruct (Qeq_bool (n * k) 1); cbn [depth]; lia.
Qed.
Lemma list_max_in : forall l x, List.In x l -> (x <= list_max l)%nat.
Proof. induction l as [|y l IH]; intros x H; [contradiction|]. change (list_max (y :: l)) with (Nat.max y (list_max l)).
  destruct H as [-> | H]; [lia | specialize (IH _ H); lia]. Qed.
Lemma negative_not_sum : forall c, sign_negative (csign T c) = true -> sum T c = false.
Proof. intros [] H; try reflexivity. discriminate. Qed.
Lemma cmul_not_sum : forall k c, well c -> sum T c = false -> sum T (cmul T k c) = false.
Proof.
  intros k c H S. destruct c; try discriminate; cbn [cmul]; destruct (Qeq_bool k 1); try reflexivity.
  destruct (Qeq_bool (n * k) 1); [|reflexivity]. cbn [well] in H. destruct c; try reflexivity. destruct H as (_ & H & _). discriminate.
Qed.

Section Print.
Context (cc : bool).
Notation pr := (print T cc).
Definition prints_value (n : nat) (c : calc (leaf T)) : Prop :=
  forall k x rest, is (ev c) k x -> exists e, VAL (pr n c ++ rest) (e, rest) /\ is (ee e) k x.
Definition prints_product (n : nat) (c : calc (leaf T)) : Prop :=
  forall k x rest, is (ev c) k x -> stop_product rest = true -> exists e, PROD (pr n c ++ rest) (e, rest) /\ is (ee e) k x.
Definition prints_sum (n : nat) (c : calc (leaf T)) : Prop :=
  forall k x rest, is (ev c) k x -> stop_product rest = true ->
    exists e, (forall r, STAIL e rest r -> SUM (pr n c ++ rest) r) /\ is (ee e) k x.
Definition prints_more (n : nat) (c : calc (leaf T)) : Prop :=
  forall k x rest acc y, is (ev c) k x -> stop_product rest = true -> is (ee acc) k y ->
    exists e, (forall r, STAIL e rest r -> STAIL acc (TPlus :: pr n c ++ rest) r) /\ is (ee e) k (y + x).

Lemma product_of_value : forall n c, prints_value n c -> prints_product n c.
Proof.
  intros n c H k x rest E S. destruct (H k x rest E) as (e & V & F). exists e. split; [|exact F].
  apply (r_product _ _ _ _ V). apply r_ptail_stop. exact S.
Qed.
Lemma sum_of_product : forall n c, prints_product n c -> prints_sum n c.
Proof.
  intros n c H k x rest E S. destruct (H k x rest E S) as (e & V & F). exists e. split; [|exact F].
  intros r Tl. apply (r_sum _ _ _ _ V Tl).
Qed.
Lemma more_of_product : forall n c, prints_product n c -> prints_more n c.
Proof.
  intros n c H k x rest acc y E S A. destruct (H k x rest E S) as (e & V & F). exists (EAdd acc e). split.
  - intros r Tl. apply (r_stail_plus _ _ _ _ _ V Tl).
  - cbn [eval]. apply two_is; [exact plus_comp | exact A | exact F].
Qed.
Lemma args_read : forall n k cs qs rest, cs <> [] -> Forall (prints_sum n) cs -> Forall2 (fun v q => is v k q) (map ev cs) qs ->
  exists es, ARGS (commas (map (pr n) cs) ++ TClose :: rest) (es, rest) /\ Forall2 (fun v q => is v k q) (map ee es) qs /\
    List.length es = List.length cs.
Proof.
  intros n k cs qs rest N H. revert qs. induction H as [|c cs C H IH]; intros qs V; [contradiction|].
  cbn [map] in V. inversion V as [|? q ? qs' V1 V2]; subst. destruct cs as [|d cs].
  - inversion V2; subst. destruct (C k q (TClose :: rest) V1 eq_refl) as (e & S & E). exists [e]. cbn [map commas].
    split; [apply r_args_last; apply S; apply r_stail_stop; reflexivity|].
    split; [constructor; [exact E | constructor] | reflexivity].
  - destruct (IH ltac:(discriminate) qs' V2) as (es & A & E & LN).
    change (commas (map (pr n) (c :: d :: cs))) with (pr n c ++ TComma :: commas (map (pr n) (d :: cs))).
    rewrite <- app_assoc. cbn [app].
    destruct (C k q (TComma :: commas (map (pr n) (d :: cs)) ++ TClose :: rest) V1 eq_refl) as (e & S & F).
    exists (e :: es). split; [|split; [constructor; assumption | cbn in LN |- *; congruence]].
    apply (r_args_more _ e (commas (map (pr n) (d :: cs)) ++ TClose :: rest)); [|exact A].
    apply S. apply r_stail_stop. reflexivity.
Qed.
(** Arguments read one by one *)
Lemma arg_read : forall n k c x rest, prints_sum n c -> is (ev c) k x ->
  exists e, ARGS (pr n c ++ TClose :: rest) ([e], rest) /\ is (ee e) k x.
Proof.
  intros n k c x rest C E. destruct (C k x (TClose :: rest) E eq_refl) as (e & S & F). exists e. split; [|exact F].
  apply r_args_last. apply S. apply r_stail_stop. reflexivity.
Qed.
Lemma arg_more : forall n k c x ts es rest, prints_sum n c -> is (ev c) k x -> ARGS ts (es, rest) ->
  exists e, ARGS (pr n c ++ TComma :: ts) (e :: es, rest) /\ is (ee e) k x.
Proof.
  intros n k c x ts es rest C E A. destruct (C k x (TComma :: ts) E eq_refl) as (e & S & F). exists e. split; [|exact F].
  apply (r_args_more _ e ts); [|exact A]. apply S. apply r_stail_stop. reflexivity.
Qed.
Lemma two_read : forall n k a b x y rest, prints_sum n a -> prints_sum n b -> is (ev a) k x -> is (ev b) k y ->
  exists e e', ARGS (commas [pr n a; pr n b] ++ TClose :: rest) ([e; e'], rest) /\ is (ee e) k x /\ is (ee e') k y.
Proof.
  intros n k a b x y rest A B X Y. destruct (arg_read n k b y rest B Y) as (e' & R1 & F1).
  destruct (arg_more n k a x _ _ _ A X R1) as (e & R2 & F2). exists e, e'. split; [|split; assumption].
  cbn [commas]. rewrite <- app_assoc. exact R2.
Qed.
Lemma three_read : forall n k a b c x y z rest, prints_sum n a -> prints_sum n b -> prints_sum n c ->
  is (ev a) k x -> is (ev b) k y -> is (ev c) k z ->
  exists e e' e'', ARGS (commas [pr n a; pr n b; pr n c] ++ TClose :: rest) ([e; e'; e''], rest) /\
    is (ee e) k x /\ is (ee e') k y /\ is (ee e'') k z.
Proof.
  intros n k a b c x y z rest A B C X Y Z. destruct (two_read n k b c y z rest B C Y Z) as (e' & e'' & R1 & F1 & F2).
  destruct (arg_more n k a x _ _ _ A X R1) as (e & R2 & F3). exists e, e', e''. split; [|split; [|split]; assumption].
  change (commas [pr n a; pr n b; pr n c]) with (pr n a ++ TComma :: commas [pr n b; pr n c]). rewrite <- app_assoc. exact R2.
Qed.
Lemma call_app : forall f (args : list (list (token (leaf T)))) rest, call f args ++ rest = TOpen f :: commas args ++ TClose :: rest.
Proof. intros f args rest. unfold call. cbn [app]. rewrite <- app_assoc. reflexivity. Qed.
Lemma strip_plain : forall f (ts : list (token (leaf T))), f <> NRound -> strip f ts = (SNearest, ts).
Proof. intros [] ts N; try reflexivity. contradiction. Qed.
Lemma args_no_strategy : forall s (ts : list (token (leaf T))) r, ~ ARGS (TStrategy s :: ts) r.
Proof. intros s ts r (n & H). destruct n as [|[|[|[|n]]]]; discriminate. Qed.
Lemma strip_args : forall f (ts : list (token (leaf T))) r, ARGS ts r -> strip f ts = (SNearest, ts).
Proof.
  intros f ts r A. destruct f; try reflexivity. destruct ts as [|[] ts]; try reflexivity. exfalso. apply (args_no_strategy _ _ _ A).
Qed.

Definition good_print (n : nat) (c : calc (leaf T)) : Prop :=
  (unit_like c = true -> prints_value n c) /\ (sum T c = false -> prints_product n c) /\ prints_sum n c /\ prints_more n c.
Lemma good_of_value : forall n c, prints_value n c -> good_print n c.
Proof.
  intros n c V. pose proof (product_of_value n c V) as P. split; [intros; exact V|]. split; [intros; exact P|].
  split; [apply sum_of_product; exact P | apply more_of_product; exact P].
Qed.
Lemma good_of_product : forall n c, unit_like c = false -> prints_product n c -> good_print n c.
Proof.
  intros n c U P. split; [intros; congruence|]. split; [intros; exact P|].
  split; [apply sum_of_product; exact P | apply more_of_product; exact P].
Qed.

Lemma print_good : forall n c, (depth c <= n)%nat -> well c -> good_print n c.
Proof.
  induction n as [|n IH]; intros c D WC; [destruct c; cbn in D; lia|].
  assert (forall c, (depth c <= n)%nat -> well c -> prints_sum n c) as SUMS by (intros d D' W'; apply (IH d D' W')).
  assert (forall cs, (list_max (map depth cs) <= n)%nat -> Forall well cs -> Forall (prints_sum n) cs) as LISTS.
  { intros cs D' W'. rewrite Forall_forall in W' |- *. intros d I. apply SUMS; [|apply W'; exact I].
    pose proof (list_max_in (map depth cs) (depth d) (in_map depth cs d I)). lia. }
  destruct c.
  - apply good_of_value. intros k x rest E. exists (EVal l). split; [apply r_val | exact E].
  - apply good_of_value. intros k x rest E. exists (ENum n0). split; [apply r_num | exact E].
  - (* sum *)
    cbn [depth] in D. destruct WC as [W1 W2]. destruct (IH c1 ltac:(lia) W1) as (_ & _ & S1 & M1).
    destruct (IH c2 ltac:(lia) W2) as (_ & _ & S2 & M2).
    assert (forall k x acc y rest, is (ev c2) k x -> stop_product rest = true -> is (ee acc) k y ->
      exists e, (forall r, STAIL e rest r ->
        STAIL acc ((if sign_negative (csign T c2) then TMinus :: pr n (cmul T (-1) c2) else TPlus :: pr n c2) ++ rest) r) /\
        is (ee e) k (y + x)) as SECOND.
    { intros k x acc y rest E SP A. destruct (sign_negative (csign T c2)) eqn:NEG.
      - pose proof (negative_not_sum _ NEG) as NS. pose proof (cmul_not_sum (-1) c2 W2 NS) as NS2.
        assert (depth (cmul T (-1) c2) <= n)%nat as D2 by (pose proof (cmul_depth (-1) c2); lia).
        destruct (IH _ D2 (cmul_well (-1) c2 ltac:(discriminate) W2)) as (_ & P & _).
        destruct (P NS2 k (-1 * x) rest (cmul_is T lval root W (-1) c2 k x E) SP) as (e & V & F). exists (ESub acc e). split.
        + intros r Tl. cbn [app]. apply (r_stail_minus _ _ _ _ _ V Tl).
        + cbn [eval]. refine (is_eq _ _ _ _ (two_is Qminus _ _ _ _ _ _ A F) _); [intros p q p' q' X Y; rewrite X, Y; reflexivity | ring].
      - destruct (M2 k x rest acc y E SP A) as (e & V & F). exists e. split; [exact V | exact F]. }
    assert (forall rest, stop_product rest = true -> stop_product
      ((if sign_negative (csign T c2) then TMinus :: pr n (cmul T (-1) c2) else TPlus :: pr n c2) ++ rest) = true) as SP2
      by (intros rest _; destruct (sign_negative (csign T c2)); reflexivity).
    split; [discriminate|]. split; [discriminate|]. split.
    + intros k x rest E SP. cbn [ceval] in E. apply two_inv in E. destruct E as (x1 & x2 & E1 & E2 & F).
      change (pr (S n) (CSum c1 c2)) with (pr n c1 ++ (if sign_negative (csign T c2) then TMinus :: pr n (cmul T (-1) c2) else TPlus :: pr n c2)).
      rewrite <- app_assoc. destruct (S1 k x1 _ E1 (SP2 rest SP)) as (ea & VA & FA).
      destruct (SECOND k x2 ea x1 rest E2 SP FA) as (e & V & FE). exists e. split.
      * intros r Tl. apply VA. apply V. exact Tl.
      * refine (is_eq _ _ _ _ FE _). symmetry. exact F.
    + intros k x rest acc y E SP A. cbn [ceval] in E. apply two_inv in E. destruct E as (x1 & x2 & E1 & E2 & F).
      change (pr (S n) (CSum c1 c2)) with (pr n c1 ++ (if sign_negative (csign T c2) then TMinus :: pr n (cmul T (-1) c2) else TPlus :: pr n c2)).
      rewrite <- app_assoc. destruct (M1 k x1 _ acc y E1 (SP2 rest SP) A) as (ea & VA & FA).
      destruct (SECOND k x2 ea (y + x1) rest E2 SP FA) as (e & V & FE). exists e. split.
      * intros r Tl. apply VA. apply V. exact Tl.
      * refine (is_eq _ _ _ _ FE _). rewrite F. ring.
  - (* product *)
    apply good_of_product; [reflexivity|]. cbn [depth] in D. destruct WC as (N0 & FN & WC).
    destruct (IH c ltac:(lia) WC) as (V & _). specialize (V (function_unit _ FN)).
    intros k x rest E SP. cbn [ceval] in E. apply one_inv in E. destruct E as (y & E & F). cbn [print].
    assert (exists e, PROD ((TNum n0 :: TTimes :: pr n c) ++ rest) (e, rest) /\ is (ee e) k x) as MUL.
    { destruct (V k y rest E) as (e & VE & FE). exists (EMul (ENum n0) e). split.
      - cbn [app]. apply (r_product _ _ _ _ (r_num n0 _)). apply (r_ptail_times _ _ _ _ _ VE). apply r_ptail_stop. exact SP.
      - cbn [eval]. destruct FE as (p & -> & FP). cbn [times]. apply is_intro. rewrite F, FP. reflexivity. }
    destruct (Qabs n0 ?= 1); try exact MUL.
    rewrite <- app_assoc. destruct (V k y ([TDivide; TNum (1 / n0)] ++ rest) E) as (e & VE & FE). exists (EDiv e (ENum (1 / n0))). split.
    + apply (r_product _ _ _ _ VE). cbn [app]. apply (r_ptail_divide _ _ _ _ _ (r_num (1 / n0) rest)). apply r_ptail_stop. exact SP.
    + cbn [eval]. destruct FE as (p & -> & FP). cbn [over]. destruct (Qeq_bool (1 / n0) 0) eqn:Z.
      * exfalso. apply Qeq_bool_iff in Z. apply N0. setoid_replace n0 with (n0 * n0 * (1 / n0)) by (field; exact N0). rewrite Z. ring.
      * apply is_intro. rewrite F, FP. field. exact N0.
  - apply good_of_value. cbn [depth] in D. intros k x rest E. cbn [print ceval] in *. rewrite call_app.
    destruct (arg_read n k c x rest (SUMS c ltac:(lia) WC) E) as (e & A & F). exists (ECalc e). split; [|exact F].
    apply (r_fun NCalc _ _ _ _ _ _ (strip_plain NCalc _ ltac:(discriminate)) A). reflexivity.
  - apply good_of_value. cbn [depth] in D. intros k x rest E. cbn [print ceval well] in *. apply well_list in WC. rewrite call_app.
    apply list_inv in E. destruct E as (q & qs & E & F). destruct (args_read n k cs (q :: qs) rest) as (es & A & V & LN).
    { intros ->. inversion E. }
    { apply LISTS; [lia | exact WC]. }
    { exact E. }
    exists (EMin es). split.
    + apply (r_fun NMin _ _ _ _ _ _ (strip_plain NMin _ ltac:(discriminate)) A). destruct es; [inversion V | reflexivity].
    + cbn [eval]. exact (is_eq _ _ _ _ (list_is _ _ _ _ _ least_comp V) (Qeq_sym _ _ F)).
  - apply good_of_value. cbn [depth] in D. intros k x rest E. cbn [print ceval well] in *. apply well_list in WC. rewrite call_app.
    apply list_inv in E. destruct E as (q & qs & E & F). destruct (args_read n k cs (q :: qs) rest) as (es & A & V & LN).
    { intros ->. inversion E. }
    { apply LISTS; [lia | exact WC]. }
    { exact E. }
    exists (EMax es). split.
    + apply (r_fun NMax _ _ _ _ _ _ (strip_plain NMax _ ltac:(discriminate)) A). destruct es; [inversion V | reflexivity].
    + cbn [eval]. exact (is_eq _ _ _ _ (list_is _ _ _ _ _ greatest_comp V) (Qeq_sym _ _ F)).
  - apply good_of_value. cbn [depth] in D. destruct WC as (W1 & W2 & W3). intros k x rest E. cbn [print ceval] in *.
    apply three_inv in E. destruct E as (x1 & x2 & x3 & E1 & E2 & E3 & F).
    pose proof (SUMS c1 ltac:(lia) W1) as P1. pose proof (SUMS c2 ltac:(lia) W2) as P2. pose proof (SUMS c3 ltac:(lia) W3) as P3.
    assert (forall b : bool, exists e, VAL ((if b then call NMax [pr n c1; call NMin [pr n c2; pr n c3]]
      else call NClamp [pr n c1; pr n c2; pr n c3]) ++ rest) (e, rest) /\ is (ee e) k x) as G; [|exact (G cc)].
    intros [|]; rewrite call_app.
    + destruct (two_read n k c2 c3 x2 x3 (TClose :: rest) P2 P3 E2 E3) as (e2 & e3 & A & F2 & F3).
      assert (VAL (call NMin [pr n c2; pr n c3] ++ TClose :: rest) (EMin [e2; e3], TClose :: rest)) as VM.
      { rewrite call_app. apply (r_fun NMin _ _ _ _ _ _ (strip_plain NMin _ ltac:(discriminate)) A). reflexivity. }
      assert (ARGS (call NMin [pr n c2; pr n c3] ++ TClose :: rest) ([EMin [e2; e3]], rest)) as AM.
      { apply r_args_last. apply (r_sum _ _ _ _ (r_product _ _ _ _ VM (r_ptail_stop _ (TClose :: rest) eq_refl))). apply r_stail_stop. reflexivity. }
      destruct (arg_more n k c1 x1 _ _ _ P1 E1 AM) as (e1 & A1 & F1). exists (EMax [e1; EMin [e2; e3]]). split.
      * cbn [commas]. rewrite <- app_assoc. apply (r_fun NMax _ _ _ _ _ _ (strip_plain NMax _ ltac:(discriminate)) A1). reflexivity.
      * cbn [eval map]. refine (is_eq _ _ _ _ (list_is greatest _ k x1 [Qmin x2 x3] greatest_comp _) _).
        -- constructor; [exact F1|]. constructor; [|constructor].
           refine (is_eq _ _ _ _ (list_is least _ k x2 [x3] least_comp _) _); [repeat constructor; assumption | reflexivity].
        -- rewrite F. reflexivity.
    + destruct (three_read n k c1 c2 c3 x1 x2 x3 rest P1 P2 P3 E1 E2 E3) as (e1 & e2 & e3 & A & F1 & F2 & F3).
      exists (EClamp e1 e2 e3). split.
      * apply (r_fun NClamp _ _ _ _ _ _ (strip_plain NClamp _ ltac:(discriminate)) A). reflexivity.
      * cbn [eval]. exact (is_eq _ _ _ _ (three_is css_clamp _ _ _ _ _ _ _ clamp_comp F1 F2 F3) (Qeq_sym _ _ F)).
  - apply good_of_value. cbn [depth] in D. destruct WC as (W1 & W2). intros k x rest E. cbn [print ceval] in *.
    apply two_inv in E. destruct E as (x1 & x2 & E1 & E2 & F). apply nonzero_inv in E2. destruct E2 as [E2 NZ].
    destruct (two_read n k c1 c2 x1 x2 rest (SUMS c1 ltac:(lia) W1) (SUMS c2 ltac:(lia) W2) E1 E2) as (e1 & e2 & A & F1 & F2).
    assert (is (ee (ERound s e1 e2)) k x) as FR.
    { cbn [eval]. refine (is_eq _ _ _ _ (two_is (css_round s) _ _ _ _ _ (css_round_comp s) F1 (nonzero_is _ _ _ F2 NZ)) (Qeq_sym _ _ F)). }
    exists (ERound s e1 e2). split; [|exact FR]. rewrite call_app. destruct s; cbn [app].
    + apply (r_fun NRound _ _ _ _ _ _ (strip_args _ _ _ A) A). reflexivity.
    + apply (r_fun NRound (commas [[TStrategy SUp]; pr n c1; pr n c2] ++ TClose :: rest) SUp _ _ _ _ eq_refl A). reflexivity.
    + apply (r_fun NRound (commas [[TStrategy SDown]; pr n c1; pr n c2] ++ TClose :: rest) SDown _ _ _ _ eq_refl A). reflexivity.
    + apply (r_fun NRound (commas [[TStrategy SToZero]; pr n c1; pr n c2] ++ TClose :: rest) SToZero _ _ _ _ eq_refl A). reflexivity.
  - apply good_of_value. cbn [depth] in D. destruct WC as (W1 & W2). intros k x rest E. cbn [print ceval] in *.
    apply two_inv in E. destruct E as (x1 & x2 & E1 & E2 & F). apply nonzero_inv in E2. destruct E2 as [E2 NZ].
    destruct (two_read n k c1 c2 x1 x2 rest (SUMS c1 ltac:(lia) W1) (SUMS c2 ltac:(lia) W2) E1 E2) as (e1 & e2 & A & F1 & F2).
    exists (ERem e1 e2). rewrite call_app. split.
    + apply (r_fun NRem _ _ _ _ _ _ (strip_plain NRem _ ltac:(discriminate)) A). reflexivity.
    + cbn [eval]. exact (is_eq _ _ _ _ (two_is css_rem _ _ _ _ _ css_rem_comp F1 (nonzero_is _ _ _ F2 NZ)) (Qeq_sym _ _ F)).
  - apply good_of_value. cbn [depth] in D. destruct WC as (W1 & W2). intros k x rest E. cbn [print ceval] in *.
    apply two_inv in E. destruct E as (x1 & x2 & E1 & E2 & F). apply nonzero_inv in E2. destruct E2 as [E2 NZ].
    destruct (two_read n k c1 c2 x1 x2 rest (SUMS c1 ltac:(lia) W1) (SUMS c2 ltac:(lia) W2) E1 E2) as (e1 & e2 & A & F1 & F2).
    exists (EMod e1 e2). rewrite call_app. split.
    + apply (r_fun NMod _ _ _ _ _ _ (strip_plain NMod _ ltac:(discriminate)) A). reflexivity.
    + cbn [eval]. exact (is_eq _ _ _ _ (two_is css_mod _ _ _ _ _ css_mod_comp F1 (nonzero_is _ _ _ F2 NZ)) (Qeq_sym _ _ F)).
  - apply good_of_value. cbn [depth] in D. intros k x rest E. cbn [print ceval] in *. rewrite call_app.
    apply one_inv in E. destruct E as (y & E & F).
    destruct (arg_read n k c y rest (SUMS c ltac:(lia) WC) E) as (e & A & FE). exists (EAbs e). split.
    + apply (r_fun NAbs _ _ _ _ _ _ (strip_plain NAbs _ ltac:(discriminate)) A). reflexivity.
    + cbn [eval]. exact (is_eq _ _ _ _ (one_is css_abs _ _ _ css_abs_comp FE) (Qeq_sym _ _ F)).
  - apply good_of_value. cbn [depth] in D. intros k x rest E. cbn [print ceval] in *. rewrite call_app.
    destruct (ev c) as [[k1 y]|] eqn:EC; [|destruct E as (u & E & _); discriminate]. destruct E as (u & E & F). injection E as <- <-.
    destruct (arg_read n k1 c y rest (SUMS c ltac:(lia) WC)) as (e & A & FE); [rewrite EC; apply is_intro; reflexivity|].
    exists (ESign e). split.
    + apply (r_fun NSign _ _ _ _ _ _ (strip_plain NSign _ ltac:(discriminate)) A). reflexivity.
    + cbn [eval]. destruct FE as (p & -> & FP). apply is_intro. rewrite (css_sign_comp _ _ FP). exact F.
  - apply good_of_value. cbn [depth] in D. intros k x rest E. cbn [print ceval well] in *. apply well_list in WC. rewrite call_app.
    apply list_inv in E. destruct E as (q & qs & E & F). destruct (args_read n k cs (q :: qs) rest) as (es & A & V & LN).
    { intros ->. inversion E. }
    { apply LISTS; [lia | exact WC]. }
    { exact E. }
    exists (EHypot es). split.
    + apply (r_fun NHypot _ _ _ _ _ _ (strip_plain NHypot _ ltac:(discriminate)) A). destruct es; [inversion V | reflexivity].
    + cbn [eval]. exact (is_eq _ _ _ _ (list_is _ _ _ _ _ (root_comp root R) V) (Qeq_sym _ _ F)).
Qed.
End Print.

(** ** What the reader produces prints well *)
Section Keep.
Context (P : calc (leaf T) -> Prop) (PV : forall l, P (CVal l)) (PN : forall q, P (CNum q)).
Context (PS : forall a b, P a -> P b -> P (CSum a b)) (PI : forall a b, P (CSum a b) -> P a /\ P b).
Definition dkeep (d : dp (leaf T)) : Prop := match d with DLeaf _ => True | DCalc c => P c end.
Lemma into_keep : forall d, dkeep d -> P (into d).
Proof. intros [l | c] H; [apply PV | exact H]. Qed.
Lemma add_keeps : forall n,
  (forall a b c, cadd T n a b = Ok c -> P a -> P b -> P c) /\
  (forall a b c, dadd T n a b = Ok c -> dkeep a -> dkeep b -> dkeep c) /\
  (forall a b c, merge T n a b = Ok (Some c) -> dkeep a -> dkeep b -> dkeep c) /\
  (forall a b c, plus T n a b = Ok c -> dkeep a -> dkeep b -> dkeep c).
Proof.
  induction n as [|n (IHc & IHd & IHm & IHp)]; [repeat split; intros; discriminate|].
  split; [|split; [|split]].
  - intros a b c H A B. cbn [cadd] in H. cbv zeta in H.
    assert (forall p q, bind (dadd T n p q) (fun d => Ok (into d)) = Ok c -> dkeep p -> dkeep q -> P c) as VALUES.
    { intros p q G X Y. apply bind_ok in G. destruct G as (d & G & G'). injection G' as <-. apply into_keep.
      apply (IHd _ _ _ G X Y). }
    destruct a; destruct b; try (injection H as <-; apply PS; assumption);
      try (destruct (flexible T); [|discriminate]; refine (VALUES _ _ H _ _); first [exact I | assumption]);
      try (refine (VALUES _ _ H _ _); exact I).
    + injection H as <-. apply PN.
    + apply PI in B. destruct B as [B1 B2]. destruct b1; try (injection H as <-; apply PS; [apply PN | assumption]);
        destruct b2; try (injection H as <-; apply PS; [apply PN | first [assumption | apply PS; assumption]]).
    + apply PI in A. destruct A as [A1 A2]. destruct a1; try (injection H as <-; apply PS; [apply PN | assumption]);
        destruct a2; try (injection H as <-; apply PS; [first [assumption | apply PS; assumption] | apply PN]).
  - intros a b c H A B. cbn [dadd] in H. apply bind_ok in H. destruct H as ([r|] & M & H).
    + injection H as <-. apply (IHm _ _ _ M A B).
    + apply (IHp _ _ _ H A B).
  - intros a b c H A B.
    assert (forall r d, dkeep r -> dkeep d -> bind (plus T n r d) (fun s => Ok (Some s)) = Ok (Some c) -> dkeep c) as PL.
    { intros r d X Y G. apply bind_ok in G. destruct G as (s & G & S). injection S as <-. apply (IHp _ _ _ G X Y). }
    cbn [merge] in H. destruct a as [a | a].
    + destruct b as [b | b].
      * destruct (ladd T a b); cbn [option_map] in H; [|discriminate]. injection H as <-. exact I.
      * destruct b; try discriminate.
        -- apply (IHm _ _ _ H A I).
        -- cbn [dkeep] in B. apply PI in B. destruct B as [B1 B2]. apply bind_ok in H. destruct H as ([r|] & M & H).
           ++ exact (PL _ (DCalc b2) (IHm _ _ _ M A B1) B2 H).
           ++ apply bind_ok in H. destruct H as ([r|] & M2 & H); [|discriminate].
              exact (PL (DCalc b1) _ B1 (IHm _ _ _ M2 A B2) H).
    + destruct a; try discriminate.
      * apply (IHm _ _ _ H I B).
      * cbn [dkeep] in A. apply PI in A. destruct A as [A1 A2]. apply bind_ok in H. destruct H as ([r|] & M & H).
        -- exact (PL _ (DCalc a2) (IHm _ _ _ M A1 B) A2 H).
        -- apply bind_ok in H. destruct H as ([r|] & M2 & H); [|discriminate].
           exact (PL (DCalc a1) _ A1 (IHm _ _ _ M2 A2 B) H).
  - intros a b c H A B. rewrite plus_S in H. destruct (dp_zero T a); [injection H as <-; exact B|].
    destruct (dp_zero T b); [injection H as <-; exact A|].
    assert (dkeep (fst (if sign_negative (dp_sign T a) && sign_positive (dp_sign T b) then (b, a) else (a, b))) /\
      dkeep (snd (if sign_negative (dp_sign T a) && sign_positive (dp_sign T b) then (b, a) else (a, b)))) as [X Y]
      by (destruct (sign_negative (dp_sign T a) && sign_positive (dp_sign T b)); split; assumption).
    destruct (if sign_negative (dp_sign T a) && sign_positive (dp_sign T b) then (b, a) else (a, b)) as [x y]. cbn [fst snd] in X, Y.
    destruct x as [x | x], y as [y | y].
    + injection H as <-. apply PS; apply PV.
    + destruct y; try (injection H as <-; apply PS; [apply PV | assumption]). apply (IHp _ _ _ H I I).
    + destruct x; try (injection H as <-; apply PS; [assumption | apply PV]). apply (IHp _ _ _ H I I).
    + assert (bind (cadd T n x y) (fun c => Ok (DCalc c)) = Ok c) as G by (destruct x; exact H).
      apply bind_ok in G. destruct G as (d & G & E). injection E as <-. apply (IHc _ _ _ G X Y).
Qed.
End Keep.

Fixpoint bare (c : calc (leaf T)) : Prop :=
  match c with CVal _ | CNum _ => True | CSum a b => bare a /\ bare b | _ => False end.
Lemma bare_well : forall c, bare c -> well c.
Proof. induction c; cbn; intros H; try contradiction; try exact I. destruct H. split; auto. Qed.
Lemma cmul_bare : forall k c, bare c -> bare (cmul T k c).
Proof.
  intros k. induction c; cbn [cmul bare]; intros H; try contradiction; destruct (Qeq_bool k 1); try exact H; try exact I.
  destruct H. split; auto.
Qed.
Lemma product_cases : forall a b c, product T a b = Ok c ->
  (exists v, b = CNum v /\ c = cmul T v a) \/ (exists v, a = CNum v /\ c = cmul T v b).
Proof.
  intros a b c H. unfold product in H. destruct b; try (injection H as <-; left; eexists; split; reflexivity);
    destruct a; try discriminate; injection H as <-; right; eexists; split; reflexivity.
Qed.
Lemma quotient_cases : forall a b c, quotient T a b = Ok c -> exists v, ~ v == 0 /\ c = cmul T (1 / v) a.
Proof.
  intros a b c H. destruct b; try discriminate. cbn [quotient] in H. destruct (Qeq_bool n 0) eqn:Z; [discriminate|]. injection H as <-.
  exists n. split; [|reflexivity]. intros X. apply Qeq_bool_iff in X. congruence.
Qed.
Lemma inverse_nonzero : forall v, ~ v == 0 -> ~ 1 / v == 0.
Proof. intros v N Z. apply N. setoid_replace v with (v * v * (1 / v)) by (field; exact N). rewrite Z. ring. Qed.
Lemma simp_bare : forall n e c, arithmetic e = true -> simp T root n e = Ok c -> bare c.
Proof.
  intros n e.
  destruct (add_keeps bare (fun _ => I) (fun _ => I) (fun a b A B => conj A B) (fun a b H => H) n) as (ADD & _).
  induction e using expr_induction; intros c' A S; cbn [arithmetic] in A; try discriminate; cbn [simp] in S.
  - injection S as <-. exact I.
  - injection S as <-. exact I.
  - apply andb_true_iff in A. destruct A as [A1 A2]. apply bind_ok in S. destruct S as (a & S1 & S). apply bind_ok in S. destruct S as (b & S2 & S).
    apply (ADD _ _ _ S); auto.
  - apply andb_true_iff in A. destruct A as [A1 A2]. apply bind_ok in S. destruct S as (a & S1 & S). apply bind_ok in S. destruct S as (b & S2 & S).
    apply (ADD _ _ _ S); [auto | apply cmul_bare; auto].
  - apply andb_true_iff in A. destruct A as [A1 A2]. apply bind_ok in S. destruct S as (a & S1 & S). apply bind_ok in S. destruct S as (b & S2 & S).
    apply product_cases in S. destruct S as [(v & _ & ->) | (v & _ & ->)]; apply cmul_bare; auto.
  - apply andb_true_iff in A. destruct A as [A1 A2]. apply bind_ok in S. destruct S as (a & S1 & S). apply bind_ok in S. destruct S as (b & S2 & S).
    apply quotient_cases in S. destruct S as (v & _ & ->). apply cmul_bare; auto.
  - apply (IHe _ A S).
Qed.
Lemma apply_op_well : forall a b f c, apply_op T a b f = Some c -> well c /\ unit_like c = true.
Proof.
  intros a b f c H. destruct a; try discriminate; destruct b; try discriminate; cbn in H.
  - destruct (lop T l l0 f); [|discriminate]. injection H as <-. split; [exact I | reflexivity].
  - injection H as <-. split; [exact I | reflexivity].
Qed.
Lemma apply_map_well : forall a f c, apply_map T a f = Some c -> well c /\ unit_like c = true.
Proof.
  intros a f c H. destruct a; try discriminate; cbn in H.
  - destruct (lmap T l f); [|discriminate]. injection H as <-. split; [exact I | reflexivity].
  - injection H as <-. split; [exact I | reflexivity].
Qed.
Lemma math_fn_well : forall f g a b, well (g a b) -> unit_like (g a b) = true -> well (math_fn T f g a b) /\ unit_like (math_fn T f g a b) = true.
Proof.
  intros f g a b G U. unfold math_fn. destruct (apply_op T a b f) as [c|] eqn:E; [apply (apply_op_well _ _ _ _ E) | split; assumption].
Qed.
Lemma clamp_well : forall a b c, well a -> well b -> well c -> well (clamp T a b c) /\ unit_like (clamp T a b c) = true.
Proof.
  intros a b c A B C. unfold clamp. destruct (compare_args T b c) as [o|] eqn:E; [|split; [cbn; tauto | reflexivity]]. cbv zeta.
  assert (forall x y o, compare_args T x y = Some o -> unit_like x = true /\ unit_like y = true) as V.
  { intros x y o' H. destruct x; try discriminate; destruct y; try discriminate; split; reflexivity. }
  assert (well (match o with Gt => c | _ => b end)) as M by (destruct o; assumption).
  destruct (compare_args T (match o with Gt => c | _ => b end) a) as [o2|] eqn:E2; [|split; [cbn; tauto | reflexivity]].
  destruct (V _ _ _ E2). destruct o2; split; assumption.
Qed.
Lemma reduce_well : forall better cs, Forall well cs -> Forall well (reduce_args T better cs).
Proof. intros better cs H. rewrite Forall_forall in *. intros c I. apply H. apply (reduce_in T better cs c I). Qed.
Lemma put_arg_length : forall better a cs, (List.length cs <= List.length (put_arg T better a cs))%nat.
Proof.
  intros better a cs. induction cs as [|b cs IH]; cbn [put_arg]; [cbn; lia|]. destruct (compare_args T a b) as [o|].
  - destruct (same_comparison o better); cbn; lia.
  - cbn in *. lia.
Qed.
Lemma reduce_single : forall better a b cs c, reduce_args T better (a :: b :: cs) = [c] -> unit_like c = true.
Proof.
  intros better a b cs c. unfold reduce_args. cbn [fold_left put_arg].
  assert (forall cs acc, (List.length acc <= List.length (fold_left (fun r x => put_arg T better x r) cs acc))%nat) as LEN.
  { clear. induction cs as [|d cs IH]; intros acc; cbn [fold_left]; [lia|]. pose proof (put_arg_length better d acc). specialize (IH (put_arg T better d acc)). lia. }
  assert (forall cs a, unit_like a = true -> fold_left (fun r x => put_arg T better x r) cs [a] = [c] -> unit_like c = true) as G.
  { clear a b cs. induction cs as [|d cs IH]; intros a U H; cbn [fold_left] in H; [injection H as <-; exact U|]. cbn [put_arg] in H.
    destruct (compare_args T d a) as [o|] eqn:E.
    - assert (unit_like d = true) by (destruct d; try discriminate; reflexivity).
      destruct (same_comparison o better); refine (IH _ _ H); assumption.
    - pose proof (LEN cs [a; d]) as Z. rewrite H in Z. cbn in Z. lia. }
  intros H. destruct (compare_args T b a) as [o|] eqn:E.
  - assert (unit_like a = true /\ unit_like b = true) as [UA UB] by (destruct b; try discriminate; destruct a; try discriminate; split; reflexivity).
    destruct (same_comparison o better); refine (G _ _ _ H); assumption.
  - pose proof (LEN cs [a; b]) as Z. rewrite H in Z. cbn in Z. lia.
Qed.
Lemma min_max_well : forall better (f : list (calc (leaf T)) -> calc (leaf T)) cs,
  (forall cs, well (f cs) <-> Forall well cs) -> (forall cs, unit_like (f cs) = true) -> Forall well cs ->
  well (min_max T better f cs) /\ ((1 < List.length cs)%nat -> unit_like (min_max T better f cs) = true).
Proof.
  intros better f cs F U H. pose proof (reduce_well better cs H) as RW. unfold min_max. split.
  - destruct (reduce_args T better cs) as [|c [|d ds]].
    + apply F. exact RW.
    + apply (Forall_inv RW).
    + apply F. exact RW.
  - intros LN. destruct cs as [|a [|b cs]]; try (cbn in LN; lia).
    pose proof (reduce_single better a b cs) as RS. destruct (reduce_args T better (a :: b :: cs)) as [|c [|d ds]]; try apply U.
    apply RS. reflexivity.
Qed.
Lemma hypot_well : forall cs, Forall well cs ->
  well (match hypot T root cs with Some c => c | None => FHypot cs end) /\
  ((1 < List.length cs)%nat -> unit_like (match hypot T root cs with Some c => c | None => FHypot cs end) = true).
Proof.
  intros cs H. destruct (hypot T root cs) as [c|] eqn:E.
  2: { split; [cbn [well]; apply well_list; exact H | reflexivity]. }
  destruct cs as [|a [|b [|d ds]]]; try discriminate.
  - injection E as <-. split; [apply (Forall_inv H) | cbn; lia].
  - cbn [hypot] in E. destruct (apply_op_well _ _ _ _ E). split; [assumption | intros; assumption].
  - change (hypot T root (a :: b :: d :: ds)) with
      (match apply_map T a (fun v => v * v) with
       | None => None
       | Some first => match add_squares T first (b :: d :: ds) with Some sum => apply_map T sum root | None => None end
       end) in E.
    destruct (apply_map T a (fun v => v * v)) as [f|]; [|discriminate]. destruct (add_squares T f (b :: d :: ds)) as [g|]; [|discriminate].
    destruct (apply_map_well _ _ _ E). split; [assumption | intros; assumption].
Qed.
Lemma factor_list : forall es : list (expr (leaf T)), fold_right and True (map (no_zero_factor lval root) es) -> Forall (no_zero_factor lval root) es.
Proof. induction es as [|e es IH]; intros H; [constructor|]. destruct H as [H1 H2]. constructor; [exact H1 | apply IH; exact H2]. Qed.
Lemma args_well : forall n k es cs qs,
  Forall (fun e => plain lval root e -> no_zero_factor lval root e -> forall c k x, simp T root n e = Ok c -> is (ee e) k x -> well c) es ->
  Forall (plain lval root) es -> Forall (no_zero_factor lval root) es -> Forall2 (fun e c => simp T root n e = Ok c) es cs ->
  Forall2 (fun v q => is v k q) (map ee es) qs -> Forall well cs.
Proof.
  intros n k es cs qs IH P F S. revert qs. induction S as [|e c es cs E S IHS]; intros qs V; cbn [map] in V; inversion V; subst; constructor.
  - eapply (Forall_inv IH (Forall_inv P) (Forall_inv F)); eassumption.
  - eapply IHS; [apply (Forall_inv_tail IH) | apply (Forall_inv_tail P) | apply (Forall_inv_tail F) | eassumption].
Qed.
Lemma simp_well : forall n e, plain lval root e -> no_zero_factor lval root e -> forall c k x,
  simp T root n e = Ok c -> is (ee e) k x -> well c.
Proof.
  intros n e.
  destruct (add_keeps well (fun _ => I) (fun _ => I) (fun a b A B => conj A B) (fun a b H => H) n) as (ADD & _).
  induction e using expr_induction; intros P F c' k x S E; cbn [plain] in P; cbn [no_zero_factor] in F; cbn [eval] in E; cbn [simp] in S;
    try (apply bind_ok in S; destruct S as (a & S1 & S)).
  - injection S as <-. exact I.
  - injection S as <-. exact I.
  - apply bind_ok in S. destruct S as (b & S2 & S). destruct P as [P1 P2], F as [F1 F2]. apply two_inv in E. destruct E as (x1 & x2 & E1 & E2 & _).
    apply (ADD _ _ _ S); [eapply IHe1 | eapply IHe2]; eassumption.
  - apply bind_ok in S. destruct S as (b & S2 & S). destruct P as [P1 P2], F as [F1 F2]. apply two_inv in E. destruct E as (x1 & x2 & E1 & E2 & _).
    apply (ADD _ _ _ S); [|apply cmul_well; [discriminate|]]; [eapply IHe1 | eapply IHe2]; eassumption.
  - apply bind_ok in S. destruct S as (b & S2 & S). destruct P as [P1 P2], F as (F1 & F2 & F3 & F4).
    assert (exists ka xa kb xb, is (ee e1) ka xa /\ is (ee e2) kb xb) as (ka & xa & kb & xb & E1 & E2).
    { apply times_inv in E. destruct E as [(u & v & U & V & _) | (u & v & U & V & _)]; eauto 8. }
    pose proof (IHe1 P1 F1 _ _ _ S1 E1) as W1. pose proof (IHe2 P2 F2 _ _ _ S2 E2) as W2.
    apply product_cases in S. destruct S as [(v & -> & ->) | (v & -> & ->)].
    + destruct (Qeq_bool v 0) eqn:Z.
      * apply bare_well. apply cmul_bare. apply (simp_bare n e1); [|exact S1]. apply Qeq_bool_iff in Z.
        pose proof (simp_is T lval root W R n e2 P2 _ _ _ S2 E2) as (q & Q1 & Q2). cbn in Q1. injection Q1 as <- <-.
        destruct E2 as (y & E2 & EY). apply (F4 y E2). rewrite EY, <- Q2. exact Z.
      * apply cmul_well; [|exact W1]. intros X. apply Qeq_bool_iff in X. congruence.
    + destruct (Qeq_bool v 0) eqn:Z.
      * apply bare_well. apply cmul_bare. apply (simp_bare n e2); [|exact S2]. apply Qeq_bool_iff in Z.
        pose proof (simp_is T lval root W R n e1 P1 _ _ _ S1 E1) as (q & Q1 & Q2). cbn in Q1. injection Q1 as <- <-.
        destruct E1 as (y & E1 & EY). apply (F3 y E1). rewrite EY, <- Q2. exact Z.
      * apply cmul_well; [|exact W2]. intros X. apply Qeq_bool_iff in X. congruence.
  - apply bind_ok in S. destruct S as (b & S2 & S). destruct P as [P1 P2], F as [F1 F2]. apply over_inv in E. destruct E as (x1 & x2 & E1 & E2 & _).
    apply quotient_cases in S. destruct S as (v & V & ->). apply cmul_well; [apply inverse_nonzero; exact V|]. eapply IHe1; eassumption.
  - apply (IHe P F _ _ _ S E).
  - apply all_ok_forall2 in S1. apply list_inv in E. destruct E as (q & qs & E & _). apply plain_list in P. apply factor_list in F.
    pose proof (args_well n k es a (q :: qs) H P F S1 E) as WA. destruct a; [discriminate|]. injection S as <-.
    apply min_max_well; [apply well_list | reflexivity | exact WA].
  - apply all_ok_forall2 in S1. apply list_inv in E. destruct E as (q & qs & E & _). apply plain_list in P. apply factor_list in F.
    pose proof (args_well n k es a (q :: qs) H P F S1 E) as WA. destruct a; [discriminate|]. injection S as <-.
    apply min_max_well; [apply well_list | reflexivity | exact WA].
  - apply bind_ok in S. destruct S as (b & S2 & S). apply bind_ok in S. destruct S as (c & S3 & S). injection S as <-.
    destruct P as (P1 & P2 & P3), F as (F1 & F2 & F3). apply three_inv in E. destruct E as (x1 & x2 & x3 & E1 & E2 & E3 & _).
    apply clamp_well; [eapply IHe1 | eapply IHe2 | eapply IHe3]; eassumption.
  - apply bind_ok in S. destruct S as (b & S2 & S). injection S as <-. destruct P as (P1 & P2 & _), F as [F1 F2].
    apply two_inv in E. destruct E as (x1 & x2 & E1 & E2 & _). apply nonzero_inv in E2. destruct E2 as [E2 _].
    apply math_fn_well; [|reflexivity]. split; [eapply IHe1 | eapply IHe2]; eassumption.
  - apply bind_ok in S. destruct S as (b & S2 & S). injection S as <-. destruct P as (P1 & P2), F as [F1 F2].
    apply two_inv in E. destruct E as (x1 & x2 & E1 & E2 & _). apply nonzero_inv in E2. destruct E2 as [E2 _].
    apply math_fn_well; [|reflexivity]. split; [eapply IHe1 | eapply IHe2]; eassumption.
  - apply bind_ok in S. destruct S as (b & S2 & S). injection S as <-. destruct P as (P1 & P2), F as [F1 F2].
    apply two_inv in E. destruct E as (x1 & x2 & E1 & E2 & _). apply nonzero_inv in E2. destruct E2 as [E2 _].
    apply math_fn_well; [|reflexivity]. split; [eapply IHe1 | eapply IHe2]; eassumption.
  - injection S as <-. apply one_inv in E. destruct E as (x1 & E1 & _). pose proof (IHe P F _ _ _ S1 E1) as WA.
    unfold abs_fn. destruct (apply_map T a Qabs) as [d|] eqn:M; [apply (apply_map_well _ _ _ M) | exact WA].
  - injection S as <-. destruct P as [P _]. destruct (ee e) as [[k1 x1]|] eqn:EE; [|destruct E as (u & E & _); discriminate].
    pose proof (IHe P F _ k1 x1 S1 (is_intro _ _ _ (Qeq_refl x1))) as WA. unfold sign_fn. destruct a; try exact WA; try exact I.
    destruct (lmap T l qsign); exact I.
  - apply all_ok_forall2 in S1. apply list_inv in E. destruct E as (q & qs & E & _). destruct P as [P _]. apply plain_list in P. apply factor_list in F.
    pose proof (args_well n k es a (q :: qs) H P F S1 E) as WA. destruct a as [|a1 as_]; [discriminate|]. injection S as <-.
    apply (hypot_well (a1 :: as_) WA).
Qed.

(** ** What stands at the root *)
Lemma all_ok_length : forall {A B : Type} (f : A -> out B) l bs, all_ok f l = Ok bs -> List.length bs = List.length l.
Proof. intros A B f l bs H. apply all_ok_forall2 in H. induction H; cbn; congruence. Qed.
Lemma hypot_unit : forall cs, (1 < List.length cs)%nat -> unit_like (match hypot T root cs with Some c => c | None => FHypot cs end) = true.
Proof.
  intros cs LN. destruct (hypot T root cs) as [c|] eqn:E; [|reflexivity].
  destruct cs as [|a [|b [|d ds]]]; try (cbn in LN; lia); [apply (apply_op_well _ _ _ _ E)|].
  change (hypot T root (a :: b :: d :: ds)) with
    (match apply_map T a (fun v => v * v) with
     | None => None
     | Some first => match add_squares T first (b :: d :: ds) with Some sum => apply_map T sum root | None => None end
     end) in E.
  destruct (apply_map T a (fun v => v * v)) as [f|]; [|discriminate]. destruct (add_squares T f (b :: d :: ds)) as [g|]; [|discriminate].
  apply (apply_map_well _ _ _ E).
Qed.
Lemma root_unit : forall n e c, proper_root e -> parse_function T root n e = Ok c -> unit_like c = true.
Proof.
  intros n e c P H. destruct e; try discriminate; cbn [parse_function simp] in H;
    try (apply bind_ok in H; destruct H as (a & S1 & H)).
  - injection H as <-. destruct a; reflexivity.
  - pose proof (all_ok_length _ _ _ S1) as LN. destruct a as [|a1 as_]; [discriminate|]. injection H as <-.
    unfold min_max. destruct es as [|e1 [|e2 es]]; try discriminate; [contradiction|].
    destruct as_ as [|a2 as_]; [discriminate|]. pose proof (reduce_single Lt a1 a2 as_) as RS.
    destruct (reduce_args T Lt (a1 :: a2 :: as_)) as [|d [|d' ds]]; try reflexivity. apply RS. reflexivity.
  - pose proof (all_ok_length _ _ _ S1) as LN. destruct a as [|a1 as_]; [discriminate|]. injection H as <-.
    unfold min_max. destruct es as [|e1 [|e2 es]]; try discriminate; [contradiction|].
    destruct as_ as [|a2 as_]; [discriminate|]. pose proof (reduce_single Gt a1 a2 as_) as RS.
    destruct (reduce_args T Gt (a1 :: a2 :: as_)) as [|d [|d' ds]]; try reflexivity. apply RS. reflexivity.
  - apply bind_ok in H. destruct H as (b & S2 & H). apply bind_ok in H. destruct H as (d & S3 & H). injection H as <-.
    unfold clamp. destruct (compare_args T b d) as [o|] eqn:E; [|reflexivity]. cbv zeta.
    destruct (compare_args T (match o with Gt => d | _ => b end) a) as [o2|] eqn:E2; [|reflexivity].
    assert (unit_like (match o with Gt => d | _ => b end) = true /\ unit_like a = true) as [U1 U2]
      by (destruct (match o with Gt => d | _ => b end); try discriminate; destruct a; try discriminate; split; reflexivity).
    destruct o2; assumption.
  - apply bind_ok in H. destruct H as (b & S2 & H). injection H as <-. unfold math_fn.
    destruct (apply_op T a b (round s)) as [d|] eqn:E; [apply (apply_op_well _ _ _ _ E) | reflexivity].
  - apply bind_ok in H. destruct H as (b & S2 & H). injection H as <-. unfold math_fn.
    destruct (apply_op T a b qrem) as [d|] eqn:E; [apply (apply_op_well _ _ _ _ E) | reflexivity].
  - apply bind_ok in H. destruct H as (b & S2 & H). injection H as <-. unfold math_fn.
    destruct (apply_op T a b modulo) as [d|] eqn:E; [apply (apply_op_well _ _ _ _ E) | reflexivity].
  - injection H as <-. unfold abs_fn. destruct (apply_map T a Qabs) as [d|] eqn:E; [apply (apply_map_well _ _ _ E) | reflexivity].
  - injection H as <-. unfold sign_fn. destruct a; try reflexivity. destruct (lmap T l qsign); reflexivity.
  - pose proof (all_ok_length _ _ _ S1) as LN. destruct a as [|a1 as_]; [discriminate|]. injection H as <-.
    destruct es as [|e1 [|e2 es]]; try discriminate; [contradiction|]. destruct as_ as [|a2 as_]; [discriminate|].
    apply (hypot_unit (a1 :: a2 :: as_)). cbn. lia.
Qed.
Lemma function_well : forall n e c k x, plain lval root e -> no_zero_factor lval root e -> parse_function T root n e = Ok c -> is (ee e) k x -> well c.
Proof.
  intros n e c k x P F H E. destruct e; try discriminate; try (exact (simp_well n _ P F _ _ _ H E)).
  cbn [parse_function] in H. apply bind_ok in H. destruct H as (a & S & H). injection H as <-.
  pose proof (simp_well n e P F _ _ _ S E) as WA. destruct a; exact WA.
Qed.

Theorem print_back : forall n e d cc, plain lval root e -> no_zero_factor lval root e -> proper_root e -> ee e <> None ->
  parse_dp T root n e = Ok d ->
  exists e', reads (print_dp T cc d) e' /\ (forall e'', reads (print_dp T cc d) e'' -> e'' = e') /\ same_value (ee e) (ee e').
Proof.
  intros n e d cc P F PR NN H.
  destruct (ee e) as [[k x]|] eqn:EE; [|contradiction]. assert (is (ee e) k x) as E by (rewrite EE; apply is_intro; reflexivity).
  pose proof (parse_dp_is T lval root W R n e d k x P H E) as I.
  assert (exists e', reads (print_dp T cc d) e' /\ is (ee e') k x) as (e' & RD & V).
  { destruct d as [l | c].
    - exists (EVal l). split; [exists 1%nat; reflexivity | exact I].
    - assert (parse_function T root n e = Ok c) as PF.
      { destruct e; cbn [parse_dp] in H; try discriminate; apply bind_ok in H; destruct H as (a & S & H);
          rewrite S; destruct a; congruence. }
      assert (well c) as WC by exact (function_well n e c k x P F PF E).
      destruct (print_good cc (depth c) c (le_n _) WC) as (V & _). specialize (V (root_unit n e c PR PF)).
      destruct (V k x [] I) as (e' & (m & RD) & VE). exists e'. split; [|exact VE]. exists m. rewrite app_nil_r in RD. exact RD. }
  exists e'. split; [exact RD|]. split; [intros e'' RD2; apply (reads_unique _ _ _ RD2 RD)|].
  destruct V as (q & -> & Q). cbn. split; [reflexivity | symmetry; exact Q].
Qed.
End Well.
