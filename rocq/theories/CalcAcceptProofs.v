(** * Well-formed math functions are accepted *)
From Coq Require Import List Bool ZArith QArith Qround Qabs Qminmax Lqa Lia Setoid.
From Verif Require Import CalcModel CalcSpec CalcArithProofs CalcProofs CalcFuelProofs.
Import ListNotations.
Local Open Scope Q_scope.

Section Accept.
Context (T : vtype) (lval : leaf T -> Q) (root : Q -> Q) (W : lawful T lval) (R : good_root root).
Notation ev := (ceval lval root).
Notation ee := (eval lval root).

(** ** Types whose plain values combine into plain values *)
Definition total2 : Prop :=
  (forall a b, ladd T a b <> None) /\ (forall a b, lcmp T a b <> None) /\ (forall a b f, lop T a b f <> None).
Definition total : Prop := total2 /\ (forall a f, lmap T a f <> None).
Definition lit (k : kind) (c : calc (leaf T)) : Prop :=
  match k, c with KNum, CNum _ => True | KVal, CVal _ => True | _, _ => False end.
Definition closed_kind (k : kind) : Prop := k = KNum \/ total2.
Definition mapped_kind (k : kind) : Prop := k = KNum \/ total.
Lemma mapped_closed : forall k, mapped_kind k -> closed_kind k.
Proof. intros k [H | [H _]]; [left | right]; exact H. Qed.

Lemma cmul_lit : forall q k c, lit k c -> lit k (cmul T q c).
Proof. intros q [|] [] H; try contradiction; cbn [cmul]; destruct (Qeq_bool q 1); exact I. Qed.
Lemma cadd_lit : forall n k a b, (3 <= n)%nat -> closed_kind k -> lit k a -> lit k b -> exists c, cadd T n a b = Ok c /\ lit k c.
Proof.
  intros n k a b N K A B. destruct n as [|[|[|n]]]; try lia. destruct k.
  - destruct a; try contradiction; destruct b; try contradiction. eexists. split; [reflexivity | exact I].
  - destruct K as [K | (K & _)]; [discriminate|].
    destruct a; try contradiction; destruct b; try contradiction. cbn [cadd dadd merge bind]. specialize (K l l0).
    destruct (ladd T l l0) as [m|]; [|contradiction]. cbn [option_map bind into]. eexists. split; [reflexivity | exact I].
Qed.
Lemma compare_lit : forall k a b, closed_kind k -> lit k a -> lit k b -> exists o, compare_args T a b = Some o.
Proof.
  intros k a b K A B. destruct k.
  - destruct a; try contradiction; destruct b; try contradiction. eexists. reflexivity.
  - destruct K as [K | (_ & K & _)]; [discriminate|].
    destruct a; try contradiction; destruct b; try contradiction. cbn. specialize (K l l0).
    destruct (lcmp T l l0) as [o|]; [|contradiction]. exists o. reflexivity.
Qed.
Lemma fold_lit : forall better k cs a, closed_kind k -> Forall (lit k) cs -> lit k a ->
  exists c, fold_left (fun reduced arg => put_arg T better arg reduced) cs [a] = [c] /\ lit k c.
Proof.
  intros better k cs a K H. revert a. induction H as [|c cs C H IH]; intros a A; cbn [fold_left]; [exists a; split; [reflexivity | exact A]|].
  cbn [put_arg]. destruct (compare_lit k c a K C A) as (o & ->). destruct (same_comparison o better); apply IH; assumption.
Qed.
Lemma min_max_lit : forall better f k cs, closed_kind k -> Forall (lit k) cs -> cs <> [] -> lit k (min_max T better f cs).
Proof.
  intros better f k cs K H N. unfold min_max, reduce_args. destruct H as [|c cs C H]; [contradiction|]. cbn [fold_left put_arg].
  destruct (fold_lit better k cs c K H C) as (d & -> & D). exact D.
Qed.
Lemma clamp_lit : forall k a b c, closed_kind k -> lit k a -> lit k b -> lit k c -> lit k (clamp T a b c).
Proof.
  intros k a b c K A B C. unfold clamp. destruct (compare_lit k b c K B C) as (o & ->). cbv zeta.
  assert (lit k (match o with Gt => c | _ => b end)) as M by (destruct o; assumption).
  destruct (compare_lit k _ a K M A) as (o2 & ->). destruct o2; assumption.
Qed.
Lemma apply_op_lit : forall k a b f, closed_kind k -> lit k a -> lit k b -> exists c, apply_op T a b f = Some c /\ lit k c.
Proof.
  intros k a b f K A B. destruct k.
  - destruct a; try contradiction; destruct b; try contradiction. eexists. split; [reflexivity | exact I].
  - destruct K as [K | (_ & _ & K)]; [discriminate|].
    destruct a; try contradiction; destruct b; try contradiction. cbn. specialize (K l l0 f).
    destruct (lop T l l0 f) as [o|]; [|contradiction]. eexists. split; [reflexivity | exact I].
Qed.
Lemma apply_map_lit : forall k a f, mapped_kind k -> lit k a -> exists c, apply_map T a f = Some c /\ lit k c.
Proof.
  intros k a f K A. destruct k.
  - destruct a; try contradiction. eexists. split; [reflexivity | exact I].
  - destruct K as [K | (_ & K)]; [discriminate|].
    destruct a; try contradiction. cbn. specialize (K l f).
    destruct (lmap T l f) as [o|]; [|contradiction]. eexists. split; [reflexivity | exact I].
Qed.
Lemma math_fn_lit : forall k f g a b, closed_kind k -> lit k a -> lit k b -> lit k (math_fn T f g a b).
Proof. intros k f g a b K A B. unfold math_fn. destruct (apply_op_lit k a b f K A B) as (c & -> & C). exact C. Qed.
Lemma add_squares_lit : forall k cs a, closed_kind k -> Forall (lit k) cs -> lit k a -> exists c, add_squares T a cs = Some c /\ lit k c.
Proof.
  intros k cs a K H. revert a. induction H as [|c cs C H IH]; intros a A; cbn [add_squares]; [exists a; split; [reflexivity | exact A]|].
  destruct (apply_op_lit k a c (fun a b => a + b * b) K A C) as (d & -> & D). apply IH. exact D.
Qed.
Lemma hypot_lit : forall k cs, closed_kind k -> ((2 < List.length cs)%nat -> mapped_kind k) -> Forall (lit k) cs -> cs <> [] ->
  lit k (match hypot T root cs with Some c => c | None => FHypot cs end).
Proof.
  intros k cs K M H N. destruct cs as [|a [|b [|d ds]]]; [contradiction | | |].
  - inversion H; subst. assumption.
  - inversion H as [|? ? A H1]; subst. inversion H1 as [|? ? B _]; subst. cbn [hypot].
    destruct (apply_op_lit k a b (fun a b => root (a * a + b * b)) K A B) as (c & -> & C). exact C.
  - inversion H as [|? ? A H1]; subst.
    change (hypot T root (a :: b :: d :: ds)) with
      (match apply_map T a (fun v => v * v) with
       | None => None
       | Some first => match add_squares T first (b :: d :: ds) with Some sum => apply_map T sum root | None => None end
       end).
    specialize (M ltac:(cbn; lia)).
    destruct (apply_map_lit k a (fun v => v * v) M A) as (x & -> & X).
    destruct (add_squares_lit k _ x K H1 X) as (y & -> & Y). destruct (apply_map_lit k y root M Y) as (z & -> & Z). exact Z.
Qed.

Definition fit (e : expr (leaf T)) (k : kind) : Prop := total \/ (total2 /\ no_map e) \/ (no_sign e /\ k = KNum).
Lemma fit_closed : forall e k, fit e k -> closed_kind k.
Proof. intros e k [[H _] | [[H _] | [_ H]]]; [right | right | left]; exact H. Qed.
Lemma no_map_list : forall es : list (expr (leaf T)), fold_right and True (map no_map es) -> Forall no_map es.
Proof. induction es as [|e es IH]; intros H; [constructor|]. destruct H as [H1 H2]. constructor; [exact H1 | apply IH; exact H2]. Qed.
Ltac fits F := let X := fresh in pose proof F as X; unfold fit in X |- *; cbn [no_map no_sign] in X; clear - X; intuition auto.
Lemma no_sign_list : forall es : list (expr (leaf T)), fold_right and True (map no_sign es) -> Forall no_sign es.
Proof. induction es as [|e es IH]; intros H; [constructor|]. destruct H as [H1 H2]. constructor; [exact H1 | apply IH; exact H2]. Qed.
Lemma num_of_lit : forall c, lit KNum c -> exists q, c = CNum q.
Proof. intros [] H; try contradiction. exists n. reflexivity. Qed.

Lemma args_lit : forall n k es qs, closed_kind k ->
  Forall (fun e => plain lval root e -> forall k x, is (ee e) k x -> fit e k -> exists c, simp T root n e = Ok c /\ lit k c) es ->
  Forall (plain lval root) es -> Forall (fun e => fit e k) es -> Forall2 (fun v q => is v k q) (map ee es) qs ->
  exists cs, all_ok (simp T root n) es = Ok cs /\ Forall (lit k) cs /\ List.length cs = List.length es.
Proof.
  intros n k es qs K IH. revert qs. induction IH as [|e es IHe IH IHes]; intros qs P F V.
  - exists []. split; [reflexivity|]. split; [constructor | reflexivity].
  - cbn [map] in V. inversion V as [|? q ? qs' V1 V2]; subst.
    destruct (IHe (Forall_inv P) _ _ V1 (Forall_inv F)) as (c & C1 & C2).
    destruct (IHes qs' (Forall_inv_tail P) (Forall_inv_tail F) V2) as (cs & D1 & D2 & D3).
    exists (c :: cs). cbn [all_ok]. rewrite C1. cbn [bind]. rewrite D1. cbn [bind].
    split; [reflexivity|]. split; [constructor; assumption | cbn; congruence].
Qed.

Lemma simp_lit : forall n e, (3 <= n)%nat -> plain lval root e -> forall k x, is (ee e) k x -> fit e k ->
  exists c, simp T root n e = Ok c /\ lit k c.
Proof.
  intros n e N. induction e using expr_induction; intros P k x E F; pose proof (fit_closed _ _ F) as K;
    cbn [plain] in P; cbn [eval] in E.
  - destruct E as (q & E & _). injection E as <- <-. exists (CVal l). split; [reflexivity | exact I].
  - destruct E as (p & E & _). injection E as <- <-. exists (CNum q). split; [reflexivity | exact I].
  - destruct P as [P1 P2]. apply two_inv in E. destruct E as (x1 & x2 & E1 & E2 & _).
    destruct (IHe1 P1 k x1 E1 ltac:(fits F)) as (a & A1 & A2).
    destruct (IHe2 P2 k x2 E2 ltac:(fits F)) as (b & B1 & B2).
    cbn [simp]. rewrite A1. cbn [bind]. rewrite B1. cbn [bind]. apply cadd_lit; assumption.
  - destruct P as [P1 P2]. apply two_inv in E. destruct E as (x1 & x2 & E1 & E2 & _).
    destruct (IHe1 P1 k x1 E1 ltac:(fits F)) as (a & A1 & A2).
    destruct (IHe2 P2 k x2 E2 ltac:(fits F)) as (b & B1 & B2).
    cbn [simp]. rewrite A1. cbn [bind]. rewrite B1. cbn [bind]. apply cadd_lit; try assumption. apply cmul_lit. exact B2.
  - destruct P as [P1 P2]. apply times_inv in E.
    assert (exists ka xa kb xb, is (ee e1) ka xa /\ is (ee e2) kb xb /\ ((ka = KNum /\ kb = k) \/ (ka = k /\ kb = KNum))) as
      (ka & xa & kb & xb & E1 & E2 & KK).
    { destruct E as [(u & v & U & V & _) | (u & v & U & V & _)]; [exists KNum, u, k, v | exists k, u, KNum, v]; auto. }
    assert (fit e1 ka) as FA by (destruct KK as [[-> ->] | [-> ->]]; fits F).
    assert (fit e2 kb) as FB by (destruct KK as [[-> ->] | [-> ->]]; fits F).
    destruct (IHe1 P1 ka xa E1 FA) as (a & A1 & A2). destruct (IHe2 P2 kb xb E2 FB) as (b & B1 & B2).
    cbn [simp]. rewrite A1. cbn [bind]. rewrite B1. cbn [bind]. destruct KK as [[-> ->] | [-> ->]].
    + destruct (num_of_lit _ A2) as (v & ->). unfold product. destruct b; try (destruct k; contradiction); (eexists; split; [reflexivity|]).
      * apply cmul_lit. exact B2.
      * destruct k; [|contradiction]. apply cmul_lit. exact I.
    + destruct (num_of_lit _ B2) as (v & ->). eexists. split; [reflexivity | apply cmul_lit; exact A2].
  - destruct P as [P1 P2]. apply over_inv in E. destruct E as (xa & xb & E1 & E2 & Z & _).
    destruct (IHe1 P1 k xa E1 ltac:(fits F)) as (a & A1 & A2).
    destruct (IHe2 P2 KNum xb E2 ltac:(fits F)) as (b & B1 & B2).
    cbn [simp]. rewrite A1. cbn [bind]. rewrite B1. cbn [bind]. destruct (num_of_lit _ B2) as (v & ->). cbn [quotient].
    destruct (simp_is T lval root W R n e2 P2 _ _ _ B1 E2) as (q & Q1 & Q2). cbn in Q1. injection Q1 as <-.
    destruct (Qeq_bool v 0) eqn:V0; [apply Qeq_bool_iff in V0; rewrite Q2 in V0; contradiction|].
    eexists. split; [reflexivity | apply cmul_lit; exact A2].
  - apply (IHe P k x E F).
  - apply list_inv in E. destruct E as (q & qs & E & _). apply plain_list in P.
    assert (Forall (fun e => fit e k) es) as FF.
    { destruct F as [F | [[G F] | [F G]]]; [apply Forall_forall; intros; left; exact F| |].
      - apply no_map_list in F. apply (Forall_impl (fun e => fit e k) (fun e X => or_intror (or_introl (conj G X))) F).
      - apply no_sign_list in F. apply (Forall_impl (fun e => fit e k) (fun e X => or_intror (or_intror (conj X G))) F). }
    destruct (args_lit n k es (q :: qs) K H P FF E) as (cs & C1 & C2 & C3).
    cbn [simp]. rewrite C1. cbn [bind]. destruct cs as [|c cs]; [destruct es; [inversion E | discriminate]|].
    eexists. split; [reflexivity | apply min_max_lit; [exact K | exact C2 | discriminate]].
  - apply list_inv in E. destruct E as (q & qs & E & _). apply plain_list in P.
    assert (Forall (fun e => fit e k) es) as FF.
    { destruct F as [F | [[G F] | [F G]]]; [apply Forall_forall; intros; left; exact F| |].
      - apply no_map_list in F. apply (Forall_impl (fun e => fit e k) (fun e X => or_intror (or_introl (conj G X))) F).
      - apply no_sign_list in F. apply (Forall_impl (fun e => fit e k) (fun e X => or_intror (or_intror (conj X G))) F). }
    destruct (args_lit n k es (q :: qs) K H P FF E) as (cs & C1 & C2 & C3).
    cbn [simp]. rewrite C1. cbn [bind]. destruct cs as [|c cs]; [destruct es; [inversion E | discriminate]|].
    eexists. split; [reflexivity | apply min_max_lit; [exact K | exact C2 | discriminate]].
  - destruct P as (P1 & P2 & P3). apply three_inv in E. destruct E as (x1 & x2 & x3 & E1 & E2 & E3 & _).
    destruct (IHe1 P1 k x1 E1 ltac:(fits F)) as (a & A1 & A2).
    destruct (IHe2 P2 k x2 E2 ltac:(fits F)) as (b & B1 & B2).
    destruct (IHe3 P3 k x3 E3 ltac:(fits F)) as (c & C1 & C2).
    cbn [simp]. rewrite A1. cbn [bind]. rewrite B1. cbn [bind]. rewrite C1. cbn [bind].
    eexists. split; [reflexivity | apply clamp_lit; assumption].
  - destruct P as (P1 & P2 & _). apply two_inv in E. destruct E as (x1 & x2 & E1 & E2 & _). apply nonzero_inv in E2. destruct E2 as [E2 _].
    destruct (IHe1 P1 k x1 E1 ltac:(fits F)) as (a & A1 & A2).
    destruct (IHe2 P2 k x2 E2 ltac:(fits F)) as (b & B1 & B2).
    cbn [simp]. rewrite A1. cbn [bind]. rewrite B1. cbn [bind]. eexists. split; [reflexivity | apply math_fn_lit; assumption].
  - destruct P as (P1 & P2). apply two_inv in E. destruct E as (x1 & x2 & E1 & E2 & _). apply nonzero_inv in E2. destruct E2 as [E2 _].
    destruct (IHe1 P1 k x1 E1 ltac:(fits F)) as (a & A1 & A2).
    destruct (IHe2 P2 k x2 E2 ltac:(fits F)) as (b & B1 & B2).
    cbn [simp]. rewrite A1. cbn [bind]. rewrite B1. cbn [bind]. eexists. split; [reflexivity | apply math_fn_lit; assumption].
  - destruct P as (P1 & P2). apply two_inv in E. destruct E as (x1 & x2 & E1 & E2 & _). apply nonzero_inv in E2. destruct E2 as [E2 _].
    destruct (IHe1 P1 k x1 E1 ltac:(fits F)) as (a & A1 & A2).
    destruct (IHe2 P2 k x2 E2 ltac:(fits F)) as (b & B1 & B2).
    cbn [simp]. rewrite A1. cbn [bind]. rewrite B1. cbn [bind]. eexists. split; [reflexivity | apply math_fn_lit; assumption].
  - apply one_inv in E. destruct E as (x1 & E1 & _). assert (mapped_kind k) as MK by (destruct F as [F | [[_ []] | [_ F]]]; [right | left]; exact F).
    destruct (IHe P k x1 E1 ltac:(fits F)) as (a & A1 & A2).
    cbn [simp]. rewrite A1. cbn [bind]. eexists. split; [reflexivity|]. unfold abs_fn.
    destruct (apply_map_lit k a Qabs MK A2) as (c & -> & C). exact C.
  - destruct F as [F | [[_ []] | [[] _]]]. destruct P as [P _]. destruct (ee e) as [[k1 x1]|] eqn:EE; [|destruct E as (u & E & _); discriminate].
    destruct (IHe P k1 x1 (is_intro _ _ _ (Qeq_refl x1)) (or_introl F)) as (a & A1 & A2).
    destruct E as (u & E & _). injection E as <- <-. cbn [simp]. rewrite A1. cbn [bind]. eexists. split; [reflexivity|].
    unfold sign_fn. destruct a; try (destruct k1; contradiction); [|exact I]. destruct F as (_ & F). specialize (F l qsign).
    destruct (lmap T l qsign); [exact I | contradiction].
  - apply list_inv in E. destruct E as (q & qs & E & _). destruct P as [P _]. apply plain_list in P.
    assert (Forall (fun e => fit e k) es) as FF.
    { destruct F as [F | [[G [F _]] | [F G]]]; [apply Forall_forall; intros; left; exact F| |].
      - apply no_map_list in F. apply (Forall_impl (fun e => fit e k) (fun e X => or_intror (or_introl (conj G X))) F).
      - apply no_sign_list in F. apply (Forall_impl (fun e => fit e k) (fun e X => or_intror (or_intror (conj X G))) F). }
    destruct (args_lit n k es (q :: qs) K H P FF E) as (cs & C1 & C2 & C3).
    cbn [simp]. rewrite C1. cbn [bind]. destruct cs as [|c cs]; [destruct es; [inversion E | discriminate]|].
    eexists. split; [reflexivity|]. refine (hypot_lit k (c :: cs) K _ C2 _); [|discriminate].
    intros LN. destruct F as [F | [[_ [_ F]] | [_ F]]]; [right; exact F | | left; exact F].
    rewrite C3 in LN. destruct es as [|? [|? [|? ?]]]; try contradiction; cbn in LN; lia.
Qed.

(** ** Types with a [Calc] variant *)
Context (FX : flexible T = true).
Lemma bind_err : forall {A B : Type} (o : out A) (f : A -> out B), bind o f = Err -> o = Err \/ exists a, o = Ok a /\ f a = Err.
Proof. intros A B [a | |] f H; [right; exists a; split; [reflexivity | exact H] | left; reflexivity | discriminate]. Qed.
Lemma add_accepts : forall n,
  (forall a b, cadd T n a b <> Err) /\ (forall a b, dadd T n a b <> Err) /\ (forall a b, merge T n a b <> Err) /\ (forall a b, plus T n a b <> Err).
Proof.
  pose proof FX as FX'.
  induction n as [|n (IHc & IHd & IHm & IHp)]; [repeat split; intros; discriminate|].
  assert (forall r d, bind (plus T n r d) (fun s => Ok (Some s)) <> Err) as P.
  { intros r d H. apply bind_err in H. destruct H as [H | (? & _ & H)]; [exact (IHp _ _ H) | discriminate]. }
  split; [|split; [|split]].
  - intros a b. assert (forall x y, bind (dadd T n x y) (fun d => Ok (into d)) <> Err) as D.
    { intros x y H. apply bind_err in H. destruct H as [H | (? & _ & H)]; [exact (IHd _ _ H) | discriminate]. }
    destruct a, b; cbn [cadd]; cbv zeta; rewrite ?FX'; try discriminate; try apply D.
    + destruct b1, b2; discriminate.
    + destruct a1, a2; discriminate.
  - intros a b H. cbn [dadd] in H. apply bind_err in H. destruct H as [H | ([r|] & _ & H)]; [exact (IHm _ _ H) | discriminate | exact (IHp _ _ H)].
  - intros a b H.
    assert (forall (o o2 : out (option (dp (leaf T)))) f g, o <> Err -> o2 <> Err -> (forall r, f r <> Err) -> (forall r, g r <> Err) ->
      bind o (fun r : option (dp (leaf T)) => match r with Some r => f r | None =>
        bind o2 (fun r => match r with Some r => g r | None => Ok (@None (dp (leaf T))) end) end) <> Err) as G.
    { intros o o2 f g O O2 F1 G1 X. apply bind_err in X. destruct X as [X | ([r|] & _ & X)]; [exact (O X) | exact (F1 _ X)|].
      apply bind_err in X. destruct X as [X | ([r|] & _ & X)]; [exact (O2 X) | exact (G1 _ X) | discriminate]. }
    destruct a as [a | a].
    + destruct b as [b | b]; [discriminate|]. destruct b; try discriminate.
      * exact (IHm _ _ H).
      * cbn [merge] in H. revert H. apply G; try apply IHm; intros r; apply P.
    + destruct a; try discriminate.
      * exact (IHm _ _ H).
      * cbn [merge] in H. revert H. apply G; try apply IHm; intros r; apply P.
  - intros a b H. rewrite plus_S in H. destruct (dp_zero T a); [discriminate|]. destruct (dp_zero T b); [discriminate|].
    destruct (if sign_negative (dp_sign T a) && sign_positive (dp_sign T b) then (b, a) else (a, b)) as [x y].
    assert (forall p q, bind (cadd T n p q) (fun c => Ok (DCalc c)) <> Err) as C.
    { intros p q X. apply bind_err in X. destruct X as [X | (? & _ & X)]; [exact (IHc _ _ X) | discriminate]. }
    destruct x as [x | x], y as [y | y].
    + discriminate.
    + destruct y; try discriminate. exact (IHp _ _ H).
    + destruct x; try discriminate. exact (IHp _ _ H).
    + destruct x; exact (C _ _ H).
Qed.
Lemma all_ok_err : forall {A B : Type} (f : A -> out B) l, all_ok f l = Err -> exists a, List.In a l /\ f a = Err.
Proof.
  intros A B f. induction l as [|a l IH]; intros H; [discriminate|]. cbn [all_ok] in H. apply bind_err in H.
  destruct H as [H | (b & _ & H)]; [exists a; split; [left; reflexivity | exact H]|]. apply bind_err in H.
  destruct H as [H | (? & _ & H)]; [|discriminate]. destruct (IH H) as (c & C1 & C2). exists c. split; [right; exact C1 | exact C2].
Qed.
Lemma args_accept : forall n k es qs,
  Forall (fun e => plain lval root e -> no_sign e -> forall k x, is (ee e) k x -> simp T root n e <> Err) es ->
  Forall (plain lval root) es -> Forall no_sign es -> Forall2 (fun v q => is v k q) (map ee es) qs -> all_ok (simp T root n) es <> Err.
Proof.
  intros n k es qs IH P S V H. apply all_ok_err in H. destruct H as (e & I & H).
  assert (exists q, is (ee e) k q) as (q & E).
  { clear - V I. remember (map ee es) as vs eqn:EV. revert es I EV. induction V as [|v q vs qs V VS IH]; intros es I EV; destruct es as [|d es]; try contradiction; try discriminate.
    injection EV as -> ->. destruct I as [-> | I]; [exists q; exact V | exact (IH es I eq_refl)]. }
  rewrite Forall_forall in IH, P, S. exact (IH e I (P e I) (S e I) k q E H).
Qed.
Lemma simp_accepts : forall n e, (3 <= n)%nat -> plain lval root e -> no_sign e -> forall k x, is (ee e) k x -> simp T root n e <> Err.
Proof.
  intros n e N. destruct (add_accepts n) as (ADD & _).
  assert (forall es k qs (f : list (calc (leaf T)) -> calc (leaf T)), all_ok (simp T root n) es <> Err ->
    Forall2 (fun v q => is v k q) (map ee es) qs -> qs <> [] ->
    bind (all_ok (simp T root n) es) (fun cs => match cs with [] => Err | _ => Ok (f cs) end) <> Err) as L.
  { intros es k qs f A V Z H. apply bind_err in H. destruct H as [H | (cs & C & H)]; [exact (A H)|]. destruct cs; [|discriminate].
    apply all_ok_forall2 in C. inversion C; subst. cbn in V. inversion V; subst. contradiction. }
  induction e using expr_induction; intros P S k x E; cbn [plain] in P; cbn [eval] in E; cbn [no_sign] in S; cbn [simp].
  - discriminate.
  - discriminate.
  - destruct P as [P1 P2], S as [S1 S2]. apply two_inv in E. destruct E as (x1 & x2 & E1 & E2 & _). intros H.
    apply bind_err in H. destruct H as [H | (a & _ & H)]; [exact (IHe1 P1 S1 _ _ E1 H)|].
    apply bind_err in H. destruct H as [H | (b & _ & H)]; [exact (IHe2 P2 S2 _ _ E2 H)|]. exact (ADD _ _ H).
  - destruct P as [P1 P2], S as [S1 S2]. apply two_inv in E. destruct E as (x1 & x2 & E1 & E2 & _). intros H.
    apply bind_err in H. destruct H as [H | (a & _ & H)]; [exact (IHe1 P1 S1 _ _ E1 H)|].
    apply bind_err in H. destruct H as [H | (b & _ & H)]; [exact (IHe2 P2 S2 _ _ E2 H)|]. exact (ADD _ _ H).
  - destruct P as [P1 P2], S as [S1 S2]. apply times_inv in E. intros H. destruct E as [(u & v & U & V & _) | (u & v & U & V & _)].
    + destruct (simp_lit n e1 N P1 _ _ U (or_intror (or_intror (conj S1 eq_refl)))) as (a & A1 & A2). rewrite A1 in H. cbn [bind] in H.
      destruct (num_of_lit _ A2) as (q & ->). apply bind_err in H. destruct H as [H | (b & _ & H)]; [exact (IHe2 P2 S2 _ _ V H)|].
      unfold product in H. destruct b; discriminate.
    + destruct (simp_lit n e2 N P2 _ _ V (or_intror (or_intror (conj S2 eq_refl)))) as (b & B1 & B2). rewrite B1 in H. 
      destruct (num_of_lit _ B2) as (q & ->). apply bind_err in H. destruct H as [H | (a & _ & H)]; [exact (IHe1 P1 S1 _ _ U H)|].
      discriminate.
  - destruct P as [P1 P2], S as [S1 S2]. apply over_inv in E. destruct E as (xa & xb & E1 & E2 & Z & _). intros H.
    destruct (simp_lit n e2 N P2 _ _ E2 (or_intror (or_intror (conj S2 eq_refl)))) as (b & B1 & B2). rewrite B1 in H.
    destruct (num_of_lit _ B2) as (v & ->). apply bind_err in H. destruct H as [H | (a & _ & H)]; [exact (IHe1 P1 S1 _ _ E1 H)|].
    cbn [bind quotient] in H. destruct (simp_is T lval root W R n e2 P2 _ _ _ B1 E2) as (q & Q1 & Q2). cbn in Q1. injection Q1 as <-.
    destruct (Qeq_bool v 0) eqn:V0; [|discriminate]. apply Qeq_bool_iff in V0. rewrite Q2 in V0. contradiction.
  - apply (IHe P S k x E).
  - apply list_inv in E. destruct E as (q & qs & E & _). apply plain_list in P. apply no_sign_list in S.
    apply (L es k (q :: qs)); [apply (args_accept n k es (q :: qs)); assumption | exact E | discriminate].
  - apply list_inv in E. destruct E as (q & qs & E & _). apply plain_list in P. apply no_sign_list in S.
    apply (L es k (q :: qs)); [apply (args_accept n k es (q :: qs)); assumption | exact E | discriminate].
  - destruct P as (P1 & P2 & P3), S as (S1 & S2 & S3). apply three_inv in E. destruct E as (x1 & x2 & x3 & E1 & E2 & E3 & _). intros H.
    apply bind_err in H. destruct H as [H | (a & _ & H)]; [exact (IHe1 P1 S1 _ _ E1 H)|].
    apply bind_err in H. destruct H as [H | (b & _ & H)]; [exact (IHe2 P2 S2 _ _ E2 H)|].
    apply bind_err in H. destruct H as [H | (c & _ & H)]; [exact (IHe3 P3 S3 _ _ E3 H) | discriminate].
  - destruct P as (P1 & P2 & _), S as [S1 S2]. apply two_inv in E. destruct E as (x1 & x2 & E1 & E2 & _). apply nonzero_inv in E2.
    destruct E2 as [E2 _]. intros H.
    apply bind_err in H. destruct H as [H | (a & _ & H)]; [exact (IHe1 P1 S1 _ _ E1 H)|].
    apply bind_err in H. destruct H as [H | (b & _ & H)]; [exact (IHe2 P2 S2 _ _ E2 H) | discriminate].
  - destruct P as (P1 & P2), S as [S1 S2]. apply two_inv in E. destruct E as (x1 & x2 & E1 & E2 & _). apply nonzero_inv in E2.
    destruct E2 as [E2 _]. intros H.
    apply bind_err in H. destruct H as [H | (a & _ & H)]; [exact (IHe1 P1 S1 _ _ E1 H)|].
    apply bind_err in H. destruct H as [H | (b & _ & H)]; [exact (IHe2 P2 S2 _ _ E2 H) | discriminate].
  - destruct P as (P1 & P2), S as [S1 S2]. apply two_inv in E. destruct E as (x1 & x2 & E1 & E2 & _). apply nonzero_inv in E2.
    destruct E2 as [E2 _]. intros H.
    apply bind_err in H. destruct H as [H | (a & _ & H)]; [exact (IHe1 P1 S1 _ _ E1 H)|].
    apply bind_err in H. destruct H as [H | (b & _ & H)]; [exact (IHe2 P2 S2 _ _ E2 H) | discriminate].
  - apply one_inv in E. destruct E as (x1 & E1 & _). intros H.
    apply bind_err in H. destruct H as [H | (a & _ & H)]; [exact (IHe P S _ _ E1 H) | discriminate].
  - contradiction.
  - apply list_inv in E. destruct E as (q & qs & E & _). destruct P as [P _]. apply plain_list in P. apply no_sign_list in S.
    apply (L es k (q :: qs)); [apply (args_accept n k es (q :: qs)); assumption | exact E | discriminate].
Qed.
End Accept.
