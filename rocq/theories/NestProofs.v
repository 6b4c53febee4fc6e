(** * Proofs about the printing of nested selectors *)
From Coq Require Import List Bool PeanoNat NArith Lia.
From Verif Require Import SelectorModel SelectorSpec NestModel NestSpec.
Import ListNotations.
Local Open Scope list_scope.

(** ** Specificity *)
Lemma t_add_0_l : forall x, t_add (0, 0, 0)%N x = x.
Proof. intros [[a b] c]. reflexivity. Qed.
Lemma t_add_0_r : forall x, t_add x (0, 0, 0)%N = x.
Proof. intros [[a b] c]. cbn. rewrite !N.add_0_r. reflexivity. Qed.
Lemma t_add_assoc : forall x y z, t_add x (t_add y z) = t_add (t_add x y) z.
Proof. intros [[a b] c] [[a' b'] c'] [[a'' b''] c'']. cbn. rewrite !N.add_assoc. reflexivity. Qed.
Lemma t_add_comm : forall x y, t_add x y = t_add y x.
Proof. intros [[a b] c] [[a' b'] c']. cbn. f_equal; [f_equal|]; apply N.add_comm. Qed.
Lemma t_max_0_r : forall x, t_max x (0, 0, 0)%N = x.
Proof.
  intros [[a b] c]. unfold t_max, t_cmp.
  destruct (a ?= 0)%N eqn:A; [|destruct (N.nlt_0_r _ (proj1 (N.compare_lt_iff _ _) A))|reflexivity].
  destruct (b ?= 0)%N eqn:B; [|destruct (N.nlt_0_r _ (proj1 (N.compare_lt_iff _ _) B))|reflexivity].
  destruct (c ?= 0)%N eqn:C; [reflexivity|destruct (N.nlt_0_r _ (proj1 (N.compare_lt_iff _ _) C))|reflexivity].
Qed.
Lemma total_app : forall f a b, total f (a ++ b) = t_add (total f a) (total f b).
Proof.
  intros f a b. induction a as [|c a IH]; cbn [total app]; [now rewrite t_add_0_l|]. rewrite IH, t_add_assoc. reflexivity.
Qed.

(** ** Lists of options *)
Lemma app_opt_some : forall A (x y : option (list A)) z, app_opt x y = Some z -> exists a b, x = Some a /\ y = Some b /\ z = a ++ b.
Proof.
  intros A x y z H. destruct x as [a|]; [|discriminate]. destruct y as [b|]; [|discriminate]. cbn in H. injection H as <-. eauto.
Qed.
Lemma map_opt_some : forall A B (f : A -> option B) l r, map_opt f l = Some r -> Forall2 (fun a b => f a = Some b) l r.
Proof.
  intros A B f. induction l as [|x l IH]; intros r H; cbn [map_opt] in H; [injection H as <-; constructor|].
  destruct (f x) as [y|] eqn:F; [|discriminate]. cbn [bind] in H. destruct (map_opt f l) as [q|] eqn:M; [|discriminate].
  cbn [bind] in H. injection H as <-. constructor; auto.
Qed.
Lemma option_map_some : forall A B (f : A -> B) x y, option_map f x = Some y -> exists a, x = Some a /\ y = f a.
Proof. intros A B f [a|] y H; [injection H as <-; eauto|discriminate]. Qed.
Lemma forallb_cons : forall A (p : A -> bool) x l, forallb p (x :: l) = true <-> p x = true /\ forallb p l = true.
Proof. intros. cbn [forallb]. now rewrite andb_true_iff. Qed.

(** ** Scanning and shapes *)
Lemma scan_app : forall a b st, scan st (a ++ b) = match scan st a with Some q => scan q b | None => None end.
Proof. induction a as [|c a IH]; intros b st; cbn [scan app]; [reflexivity|]. destruct (next st c); auto. Qed.
Lemma steps_app : forall a b n, steps n (a ++ b) = match steps n a with Some q => steps q b | None => None end.
Proof. induction a as [|c a IH]; intros b n; cbn [steps app]; [reflexivity|]. destruct (step n c); auto. Qed.

Definition no_comb (c : list part) : Prop := forallb (fun x => match x with Comb _ => false | _ => true end) c = true.
Fixpoint join (cs : list (list part)) (ks : list comb) : list part :=
  match cs with
  | [] => []
  | c :: t => match ks with [] => c | k :: r => c ++ Comb k :: join t r end
  end.
Lemma split_join : forall s, let '(cs, ks) := split s in
  join cs ks = s /\ length cs = S (length ks) /\ Forall no_comb cs.
Proof.
  induction s as [|c s IH]; cbn [split].
  { repeat split; repeat constructor. }
  destruct (split s) as [cs ks]. destruct IH as [J [L F]]. destruct cs as [|c0 cs]; [discriminate|].
  assert (H : forall x, (match x with Comb _ => false | _ => true end) = true ->
     join ((x :: hd [] (c0 :: cs)) :: tl (c0 :: cs)) ks = x :: s
     /\ length ((x :: hd [] (c0 :: cs)) :: tl (c0 :: cs)) = S (length ks)
     /\ Forall no_comb ((x :: hd [] (c0 :: cs)) :: tl (c0 :: cs))).
  { intros x X. cbn [hd tl]. split; [|split; [exact L|]].
    - rewrite <- J. destruct ks; reflexivity.
    - inversion F; subst. constructor; [|assumption]. unfold no_comb. cbn [forallb]. rewrite X. exact H1. }
  destruct c; try (apply H; reflexivity).
  cbn [join length]. split; [|split].
  - cbn [app]. f_equal. exact J.
  - f_equal. exact L.
  - constructor; [reflexivity|exact F].
Qed.

(** States of the shape. *)
Lemma step_in : forall n c m, n <= 3 -> step n c = Some m -> m <= 3.
Proof. intros n c m N H. destruct n as [|[|[|[|n]]]]; [| | | |lia]; destruct c; cbn in H; try discriminate; injection H as <-; lia. Qed.
Lemma steps_in : forall s n m, n <= 3 -> steps n s = Some m -> m <= 3.
Proof.
  induction s as [|c s IH]; intros n m N H; cbn [steps] in H; [injection H as <-; exact N|].
  destruct (step n c) as [q|] eqn:Q; [|discriminate]. eapply IH; [|exact H]. eapply step_in; eauto.
Qed.
(** Inside a compound, after its start: no types. *)
Definition untyped (c : list part) : bool := forallb (fun x => negb (is_type x)) c.
Lemma steps_2 : forall c m, no_comb c -> steps 2 c = Some m -> m = 2 /\ untyped c = true.
Proof.
  induction c as [|x c IH]; intros m N H; cbn [steps] in H; [injection H as <-; auto|].
  apply forallb_cons in N. destruct N as [N1 N2]. unfold untyped. cbn [forallb].
  destruct x; cbn [step] in H; try discriminate; destruct (IH _ N2 H) as [-> U]; unfold untyped in U; cbn [is_type]; rewrite U; auto.
Qed.
Lemma steps_3 : forall c m, no_comb c -> c <> [] -> steps 3 c = Some m -> m = 2 /\ untyped (tl c) = true.
Proof.
  intros [|x c] m N E H; [congruence|]. apply forallb_cons in N. destruct N as [N1 N2]. cbn [steps tl] in *.
  destruct x; cbn [step] in H; try discriminate; exact (steps_2 _ _ N2 H).
Qed.
Lemma steps_1 : forall c m, no_comb c -> c <> [] -> steps 1 c = Some m -> m = 2 /\ untyped (tl c) = true.
Proof.
  intros [|x c] m N E H; [congruence|]. apply forallb_cons in N. destruct N as [N1 N2]. cbn [steps tl] in *.
  destruct x; cbn [step] in H; try discriminate; exact (steps_2 _ _ N2 H).
Qed.
Lemma steps_0 : forall x c m, no_comb (x :: c) -> is_nesting x = false -> steps 0 (x :: c) = Some m -> m = 2 /\ untyped c = true.
Proof.
  intros x c m N E H. apply forallb_cons in N. destruct N as [N1 N2]. cbn [steps] in *.
  destruct x; cbn [step] in H; try discriminate; exact (steps_2 _ _ N2 H).
Qed.

(** ** Running *)
Section Running.
Context {E : Type} (w : world E).
Lemma run_app : forall f P a b, run w f P (a ++ b) = run w f (run w f P a) b.
Proof. intros. unfold run. apply fold_left_app. Qed.
Lemma read_part_ext : forall f g c P Q, (forall e, P e <-> Q e) -> (forall e, f c e <-> g c e) ->
  forall e, read_part w f P c e <-> read_part w g Q c e.
Proof.
  intros f g c P Q H F e.
  assert (M : forall k, moved w k P e <-> moved w k Q e).
  { intros k. unfold moved. split; intros [x [A B]]; exists x; split; auto; apply H; exact B. }
  pose proof (F e) as Fe. pose proof (H e) as He.
  destruct c; cbn [read_part]; try (rewrite He, Fe; reflexivity); try (rewrite M, Fe; reflexivity). apply M.
Qed.
Lemma run_ext : forall f g s P Q, (forall e, P e <-> Q e) -> (forall c, In c s -> forall e, f c e <-> g c e) ->
  forall e, run w f P s e <-> run w g Q s e.
Proof.
  intros f g. induction s as [|c s IH]; intros P Q H F e; [apply H|].
  change (run w f P (c :: s) e) with (run w f (read_part w f P c) s e).
  change (run w g Q (c :: s) e) with (run w g (read_part w g Q c) s e).
  apply IH; [|intros d D; apply F; now right]. apply read_part_ext; [exact H|apply F; now left].
Qed.
Lemma run_ext_p : forall f s P Q, (forall e, P e <-> Q e) -> forall e, run w f P s e <-> run w f Q s e.
Proof. intros. apply run_ext; [assumption|]. intros. reflexivity. Qed.
Lemma run_simple : forall f s, is_simple s = true -> forall P e, run w f P s e <-> P e /\ ends w f s e.
Proof.
  intros f. induction s as [|c s IH]; intros S P e; [cbn; tauto|].
  apply forallb_cons in S. destruct S as [S1 S2].
  unfold ends.
  change (run w f P (c :: s) e) with (run w f (read_part w f P c) s e).
  change (run w f (fun _ => True) (c :: s) e) with (run w f (read_part w f (fun _ => True) c) s e).
  rewrite (IH S2 (read_part w f P c)), (IH S2 (read_part w f (fun _ => True) c)).
  destruct c; try discriminate; cbn [read_part]; tauto.
Qed.
Lemma run_all : forall f s (P : E -> Prop), (forall e, P e) -> forall e, run w f P s e <-> ends w f s e.
Proof. intros f s P H e. apply run_ext_p. intros x. split; auto. Qed.
End Running.

(** ** The printer's functions with names *)
Definition nest_of (f : nat) (dest ctx : list (list selector)) (first : bool) : option (list part) :=
  match ctx with
  | [] => Some [Scope]
  | l :: r =>
    match l with
    | [p] => if first || (negb (has_type p) && is_simple p) then serialize f dest r false p
             else option_map (fun x => [Is x]) (map_opt (serialize f dest r false) l)
    | _ => option_map (fun x => [Is x]) (map_opt (serialize f dest r false) l)
    end
  end.
Definition one_of (f : nat) (dest ctx : list (list selector)) (c : part) : option (list part) :=
  match c with
  | Is l => if unwraps l then serialize f dest ctx false (hd [] l)
            else option_map (fun x => [Is x]) (map_opt (serialize f dest ctx false) l)
  | Where l => option_map (fun x => [Where x]) (map_opt (serialize f dest ctx false) l)
  | Any l => option_map (fun x => [Any x]) (map_opt (serialize f dest ctx false) l)
  | Not l => option_map (fun x => [Not x]) (map_opt (serialize f dest ctx false) l)
  | Has l => option_map (fun x => [Has x]) (map_opt (serialize f dest ctx true) l)
  | NthOf n l => option_map (fun x => [NthOf n x]) (map_opt (serialize f dest ctx true) l)
  | Host x => option_map (fun x => [Host x]) (serialize f dest dest false x)
  | Slotted x => option_map (fun x => [Slotted x]) (serialize f dest dest false x)
  | Nesting => nest_of f dest ctx false
  | _ => Some [c]
  end.
Lemma serialize_S : forall f dest ctx rel s, serialize (S f) dest ctx rel s =
  let (cs, ks) := split s in compounds (nest_of f dest ctx) (one_of f dest ctx) rel true cs ks.
Proof. reflexivity. Qed.

(** ** Relative selectors *)
Lemma split_free : forall s, forallb (fun c => negb (is_scope c)) s = true ->
  Forall (fun c => forallb (fun c => negb (is_scope c)) c = true) (fst (split s)).
Proof.
  induction s as [|c s IH]; intros H; cbn [split]; [repeat constructor|].
  apply forallb_cons in H. destruct H as [H1 H2]. specialize (IH H2). destruct (split s) as [cs ks]. cbn [fst] in *.
  assert (G : Forall (fun c => forallb (fun c => negb (is_scope c)) c = true) ((c :: hd [] cs) :: tl cs)).
  { destruct cs as [|c0 cs]; cbn [hd tl]; constructor; cbn [forallb]; rewrite ?H1; auto; inversion IH; subst; auto. }
  destruct c; cbn [fst]; try exact G. constructor; auto.
Qed.
Lemma compounds_free : forall nest one cs ks first,
  Forall (fun c => forallb (fun c => negb (is_scope c)) c = true) cs ->
  compounds nest one true first cs ks = compounds nest one false first cs ks.
Proof.
  intros nest one. induction cs as [|c cs IH]; intros ks first H; [reflexivity|]. inversion H as [|x y A B]; subst.
  cbn [compounds]. destruct c as [|x c]; cbn [andb].
  - rewrite IH; auto.
  - cbn [forallb] in A. apply andb_true_iff in A. destruct A as [A1 A2]. destruct (is_scope x); [discriminate|]. cbn [andb]. rewrite IH; auto.
Qed.
Lemma serialize_free : forall f dest ctx s, forallb (fun c => negb (is_scope c)) s = true ->
  serialize f dest ctx true s = serialize f dest ctx false s.
Proof.
  intros f dest ctx s H. destruct f as [|f]; [reflexivity|]. rewrite !serialize_S. pose proof (split_free s H) as F.
  destruct (split s) as [cs ks]. apply compounds_free. exact F.
Qed.
Lemma serialize_scope : forall f dest ctx k r, 
  serialize (S f) dest ctx true (Scope :: Comb k :: r) = app_opt (Some [Comb k]) (serialize (S f) dest ctx false r).
Proof.
  intros f dest ctx k r. rewrite !serialize_S. cbn [split]. destruct (split r) as [cs ks]. reflexivity.
Qed.

(** ** Selectors without [&] do not depend on the context *)
Lemma split_nest_free : forall s, forallb nest_free s = true -> Forall (fun c => forallb nest_free c = true) (fst (split s)).
Proof.
  induction s as [|c s IH]; intros H; cbn [split]; [repeat constructor|].
  apply forallb_cons in H. destruct H as [H1 H2]. specialize (IH H2). destruct (split s) as [cs ks]. cbn [fst] in *.
  assert (G : Forall (fun c => forallb nest_free c = true) ((c :: hd [] cs) :: tl cs)).
  { destruct cs as [|c0 cs]; cbn [hd tl]; constructor; cbn [forallb]; rewrite ?H1; auto; inversion IH; subst; auto. }
  destruct c; cbn [fst]; try exact G. constructor; auto.
Qed.
Lemma compounds_ext : forall nest nest' one one' cs ks rel first,
  (forall c, nest_free c = true -> one c = one' c) -> Forall (fun c => forallb nest_free c = true) cs ->
  compounds nest one rel first cs ks = compounds nest' one' rel first cs ks.
Proof.
  intros nest nest' one one' cs ks rel first H F. revert ks rel first.
  assert (ALL : forall l, forallb nest_free l = true -> all one l = all one' l).
  { intros l L. unfold all. f_equal. induction l as [|c l IH]; [reflexivity|]. apply forallb_cons in L. destruct L as [L1 L2].
    cbn [map_opt]. rewrite (H c L1), (IH L2). reflexivity. }
  assert (FIL : forall l p, forallb nest_free l = true -> forallb nest_free (filter p l) = true).
  { intros l p L. induction l as [|c l IH]; [reflexivity|]. apply forallb_cons in L. destruct L as [L1 L2].
    cbn [filter]. destruct (p c); [cbn [forallb]; rewrite L1; auto|auto]. }
  assert (COM : forall first c, forallb nest_free c = true -> compound nest one first c = compound nest' one' first c).
  { intros first c C. unfold compound. destruct c as [|x c].
    - rewrite andb_false_r. unfold elided. cbn [filter andb]. unfold all. reflexivity.
    - assert (X : is_nesting x = false).
      { cbn [forallb] in C. apply andb_true_iff in C. destruct x; try reflexivity. destruct C; discriminate. }
      rewrite X, andb_false_r. unfold elided. cbn [andb].
      rewrite (ALL _ (FIL (x :: c) _ C)).
      assert (U : one Univ = one' Univ) by (apply H; reflexivity). rewrite U. reflexivity. }
  induction cs as [|c cs IH]; intros ks rel first; [reflexivity|]. inversion F as [|x y A B]; subst. specialize (IH B).
  cbn [compounds].
  destruct (rel && match c with x :: _ => is_scope x | [] => false end).
  - assert (A' : forallb nest_free (tl c) = true).
    { destruct c as [|x c]; [reflexivity|]. apply forallb_cons in A. exact (proj2 A). }
    destruct (tl c) as [|z c'] eqn:TC; [rewrite IH; reflexivity|]. rewrite (COM _ _ A'), IH. reflexivity.
  - destruct c as [|z c']; [rewrite IH; reflexivity|]. rewrite (COM _ _ A), IH. reflexivity.
Qed.
Lemma map_opt_ext : forall A B (f g : A -> option B) l, (forall x, In x l -> f x = g x) -> map_opt f l = map_opt g l.
Proof.
  intros A B f g. induction l as [|x l IH]; intros H; [reflexivity|]. cbn [map_opt]. rewrite (H x) by now left.
  rewrite IH; [reflexivity|]. intros y Y. apply H. now right.
Qed.
Lemma serialize_nest_free : forall f dest ctx ctx' rel s, forallb nest_free s = true ->
  serialize f dest ctx rel s = serialize f dest ctx' rel s.
Proof.
  induction f as [|f IH]; intros dest ctx ctx' rel s H; [reflexivity|]. rewrite !serialize_S.
  pose proof (split_nest_free s H) as F. destruct (split s) as [cs ks]. apply compounds_ext; [|exact F].
  assert (M : forall rel l, forallb (forallb nest_free) l = true ->
      map_opt (serialize f dest ctx rel) l = map_opt (serialize f dest ctx' rel) l).
  { intros rel0 l L. apply map_opt_ext. intros x X. apply IH. exact (proj1 (forallb_forall _ _) L x X). }
  intros c C. destruct c; cbn [one_of nest_free] in *; try reflexivity; try discriminate; try (rewrite (M _ _ C); reflexivity).
  destruct (unwraps l) eqn:U; [|rewrite (M _ _ C); reflexivity].
  apply IH. destruct l as [|s0 l]; [reflexivity|]. apply forallb_cons in C. exact (proj1 C).
Qed.

(** ** What is printed means the same *)
Section Main.
Context {E : Type} (w : world E).
Variable weight : nat -> triple.
Hypothesis EXT : extensional w.

Definition T (P : E -> Prop) (t : list part) (e : E) : Prop := run w (sem w true (fun _ => False)) P t e.
Definition R (ctx : list (list selector)) (P : E -> Prop) (s : list part) (e : E) : Prop :=
  run w (sem w false (enclosing w ctx)) P s e.
Definition NS (ctx : list (list selector)) (c : part) : triple := specificity weight false (enclosing_spec weight ctx) c.
Definition TS (c : part) : triple := specificity weight true (0, 0, 0)%N c.

Lemma T_app : forall P a b e, T P (a ++ b) e <-> T (T P a) b e.
Proof. intros. unfold T. rewrite run_app. reflexivity. Qed.
Lemma R_app : forall ctx P a b e, R ctx P (a ++ b) e <-> R ctx (R ctx P a) b e.
Proof. intros. unfold R. rewrite run_app. reflexivity. Qed.
Lemma T_ext : forall P Q t e, (forall e, P e <-> Q e) -> T P t e <-> T Q t e.
Proof. intros. apply run_ext_p. assumption. Qed.
Lemma R_ext : forall ctx P Q t e, (forall e, P e <-> Q e) -> R ctx P t e <-> R ctx Q t e.
Proof. intros. apply run_ext_p. assumption. Qed.
Lemma R_cons : forall ctx P c s e, R ctx P (c :: s) e <-> R ctx (read_part w (sem w false (enclosing w ctx)) P c) s e.
Proof. reflexivity. Qed.
Lemma T_cons : forall P c s e, T P (c :: s) e <-> T (read_part w (sem w true (fun _ => False)) P c) s e.
Proof. reflexivity. Qed.

Definition closed_part (ctx : list (list selector)) (c : part) : Prop :=
  match ctx with [] => nest_free c = true | _ => rooted ctx end.

(** A printed selector. *)
Record good (ctx : list (list selector)) (s t : list part) : Prop := {
  g_scan : scan true t = Some false;
  g_args : forallb well_argued t = true;
  g_plain : plain s = true -> plain t = true;
  g_single : single ctx s -> is_simple t = true;
  g_typeless : typeless ctx s -> scan false t = Some false;
  g_run : forall (P : E -> Prop) e, (forall e, P e) \/ leads_single ctx s -> T P t e <-> R ctx P s e;
  g_spec : closed_in ctx s -> total TS t = total (NS ctx) s
}.
(** A printed component that is not at the start of a selector. *)
Record good1 (ctx : list (list selector)) (c : part) (t : list part) : Prop := {
  h_scan : if is_type c then t = [c] else forall st, scan st t = Some false;
  h_args : forallb well_argued t = true;
  h_plain : plain [c] = true -> plain t = true;
  h_simple : is_simple [c] = true -> is_simple t = true;
  h_run : forall P e, T P t e <-> R ctx P [c] e;
  h_spec : closed_part ctx c -> total TS t = NS ctx c
}.

Lemma closed_parts : forall ctx s, closed_in ctx s <-> (forall c, In c s -> closed_part ctx c) /\ (ctx <> [] -> rooted ctx).
Proof.
  intros ctx s. destruct ctx as [|l r]; cbn [closed_in closed_part].
  - rewrite forallb_forall. split; [intros H; split; [exact H|congruence]|intros [H _]; exact H].
  - split; [intros H; split; auto|intros [_ H]; apply H; discriminate].
Qed.
Lemma closed_cons : forall ctx c s, closed_in ctx (c :: s) <-> closed_part ctx c /\ closed_in ctx s.
Proof.
  intros ctx c s. destruct ctx as [|l r]; cbn [closed_in closed_part]; [cbn [forallb]; now rewrite andb_true_iff|tauto].
Qed.
Lemma closed_app : forall ctx a b, closed_in ctx (a ++ b) <-> closed_in ctx a /\ closed_in ctx b.
Proof.
  intros ctx a b. destruct ctx as [|l r]; cbn [closed_in]; [rewrite forallb_app; now rewrite andb_true_iff|tauto].
Qed.

(** *** Lists of arguments *)
Lemma good_ends : forall ctx s t e, good ctx s t ->
  ends w (sem w true (fun _ => False)) t e <-> ends w (sem w false (enclosing w ctx)) s e.
Proof. intros ctx s t e G. apply (g_run _ _ _ G). left. auto. Qed.
Lemma good_some : forall ctx l x, Forall2 (good ctx) l x -> forall e,
  some w (sem w true (fun _ => False)) x e <-> some w (sem w false (enclosing w ctx)) l e.
Proof.
  intros ctx l x H. induction H as [|s t l x G H IH]; intros e; cbn [some]; [tauto|].
  rewrite (good_ends _ _ _ e G), IH. tauto.
Qed.
Lemma good_most : forall ctx l x, Forall2 (good ctx) l x -> Forall (closed_in ctx) l -> most TS x = most (NS ctx) l.
Proof.
  intros ctx l x H. induction H as [|s t l x G H IH]; intros C; cbn [most]; [reflexivity|].
  inversion C; subst. rewrite (g_spec _ _ _ G) by assumption. rewrite IH by assumption. reflexivity.
Qed.
Lemma good_list : forall ctx l x, Forall2 (good ctx) l x -> Forall (fun s => plain s = true) l ->
  forallb (fun s => complete s && plain s && forallb well_argued s) x = true.
Proof.
  intros ctx l x H. induction H as [|s t l x G H IH]; intros C; cbn [forallb]; [reflexivity|].
  inversion C; subst. rewrite IH by assumption. unfold complete. rewrite (g_scan _ _ _ G), (g_plain _ _ _ G), (g_args _ _ _ G) by assumption. reflexivity.
Qed.
Lemma closed_list : forall ctx c l, (nest_free c = forallb (forallb nest_free) l) -> closed_part ctx c -> Forall (closed_in ctx) l.
Proof.
  intros ctx c l N C. apply Forall_forall. intros s S. destruct ctx as [|a r]; cbn [closed_in closed_part] in *; [|exact C].
  rewrite N in C. exact (proj1 (forallb_forall _ _) C s S).
Qed.
Lemma fine_args_in : forall ctx l, fine_args ctx (fine ctx) l -> Forall (fun s => plain s = true /\ fine_in ctx s) l.
Proof.
  intros ctx l. induction l as [|s l IH]; intros H; [constructor|]. cbn [fine_args] in H. destruct H as [[A [B C]] D].
  constructor; [split; [exact B|split; [exact A|exact C]]|auto].
Qed.

Section Step.
Variable f : nat.
Variable dest : list (list selector).
Hypothesis IH : forall ctx s t, fine_context ctx -> fine_in ctx s -> serialize f dest ctx false s = Some t -> good ctx s t.

Lemma IH_list : forall ctx l x, fine_context ctx -> Forall (fun s => plain s = true /\ fine_in ctx s) l ->
  map_opt (serialize f dest ctx false) l = Some x -> Forall2 (good ctx) l x /\ Forall (fun s => plain s = true) l.
Proof.
  intros ctx l x C F H. apply map_opt_some in H. split; [|eapply Forall_impl; [|exact F]; cbn; tauto].
  induction H as [|s t l x G H IHl]; [constructor|]. inversion F as [|a b [A B] D]; subst. constructor; auto.
Qed.
Lemma single_leads : forall ctx s, single ctx s -> leads_single ctx s.
Proof.
  intros ctx s H. unfold leads_single. intros A B. destruct ctx as [|[|p [|q l]] r]; auto. cbn [single] in H. apply H. exact A.
Qed.
Lemma rooted_up : forall p r, rooted ([p] :: r) -> closed_in r p.
Proof.
  intros p r H. destruct r as [|l r]; cbn [rooted closed_in] in *; [now inversion H|exact H].
Qed.
Lemma rooted_ups : forall l r, rooted (l :: r) -> Forall (closed_in r) l.
Proof.
  intros l r H. destruct r as [|l' r]; cbn [rooted] in *; [exact H|]. apply Forall_forall. intros s _. exact H.
Qed.
Lemma single_simple : forall ctx s, single ctx s -> is_simple s = true.
Proof. intros [|l ctx] s [A _]; exact A. Qed.

(** *** The enclosing selectors in [:is()] *)
Lemma nest_is : forall l r x, fine_context (l :: r) -> map_opt (serialize f dest r false) l = Some x ->
  good1 (l :: r) Nesting [Is x].
Proof.
  intros l r x C H. destruct C as [F C].
  assert (F' : Forall (fun s => plain s = true /\ fine_in r s) l) by (eapply Forall_impl; [|exact F]; cbn; tauto).
  destruct (IH_list _ _ _ C F' H) as [G P].
  constructor.
  - cbn. reflexivity.
  - cbn [forallb well_argued]. rewrite (good_list _ _ _ G P). reflexivity.
  - reflexivity.
  - reflexivity.
  - intros Q e. cbn [T R run fold_left read_part]. unfold T, R, run. cbn [fold_left read_part sem enclosing].
    rewrite (good_some _ _ _ G). reflexivity.
  - cbn [closed_part]. intros RT. cbn [total TS specificity]. rewrite t_add_0_r.
    change (most (specificity weight true (0, 0, 0)%N) x) with (most TS x).
    rewrite (good_most _ _ _ G) by (apply rooted_ups; exact RT). reflexivity.
Qed.
(** Replaced by the only enclosing selector. *)
Lemma nest_one : forall p r t, good r p t -> single r p -> typeless r p -> good1 ([p] :: r) Nesting t.
Proof.
  intros p r t G S TY. constructor.
  - cbn [is_type]. intros [|]; [apply (g_scan _ _ _ G)|apply (g_typeless _ _ _ G TY)].
  - apply (g_args _ _ _ G).
  - intros _. apply (g_plain _ _ _ G). pose proof (single_simple _ _ S) as X.
    apply forallb_forall. intros c Q. apply (proj1 (forallb_forall _ _) X) in Q. destruct c; auto.
  - intros _. apply (g_single _ _ _ G S).
  - intros P e. rewrite (g_run _ _ _ G) by (right; apply single_leads; exact S). unfold R at 1.
    rewrite run_simple by (eapply single_simple; exact S). unfold R, run. cbn [fold_left read_part sem enclosing some]. tauto.
  - cbn [closed_part]. intros RT. rewrite (g_spec _ _ _ G) by (apply rooted_up; exact RT).
    unfold NS. cbn [specificity enclosing_spec most]. rewrite t_max_0_r. reflexivity.
Qed.
Lemma nest_root : good1 [] Nesting [Scope].
Proof.
  constructor; try reflexivity; try (intros; reflexivity); cbn; try discriminate. reflexivity.
Qed.
Lemma nest_inner : forall ctx t, fine_context ctx -> replaceable ctx -> nest_of f dest ctx false = Some t -> good1 ctx Nesting t.
Proof.
  intros ctx t C RP H. destruct ctx as [|l r].
  { cbn in H. injection H as <-. apply nest_root. }
  assert (G : option_map (fun x => [Is x]) (map_opt (serialize f dest r false) l) = Some t -> good1 (l :: r) Nesting t).
  { intros X. apply option_map_some in X. destruct X as [x [X ->]]. apply nest_is; assumption. }
  destruct l as [|p [|q l]]; cbn [nest_of] in H; try exact (G H).
  cbn [orb] in H. destruct (negb (has_type p) && is_simple p) eqn:N; [|exact (G H)].
  apply andb_true_iff in N. destruct N as [N1 N2]. apply negb_true_iff in N1.
  cbn [replaceable] in RP. destruct (RP N1 N2) as [S TY].
  destruct C as [F C]. inversion F as [|a b [A B] D]; subst. apply nest_one; auto.
Qed.

(** *** One component *)
Lemma fine_relatives_in : forall ctx l, fine_relatives ctx (fine ctx) l -> Forall (fine_relative ctx (fine ctx)) l.
Proof. intros ctx l. induction l as [|s l IHl]; intros H; [constructor|]. destruct H. constructor; auto. Qed.
(** A relative selector, printed. *)
Lemma relative_shape : forall s, (exists k r, s = Scope :: Comb k :: r) \/
  (match s with Scope :: Comb _ :: _ => false | _ => true end) = true.
Proof. intros q; destruct q as [|a q]; [|destruct a; destruct q as [|b q]; try destruct b]; eauto. Qed.
Lemma scan_head : forall t, scan true t = Some false -> match t with [] | Comb _ :: _ => False | _ => True end.
Proof. intros q; destruct q as [|a q]; [|destruct a]; cbn; intros H; try discriminate; auto. Qed.
Lemma steps_head : forall s, shaped s = true -> match s with [] | Comb _ :: _ => False | _ => True end.
Proof. intros q; destruct q as [|a q]; [|destruct a]; cbn; intros H; try discriminate; auto. Qed.
Lemma fine_relative_other : forall ctx s, (match s with Scope :: Comb _ :: _ => false | _ => true end) = true ->
  fine_relative ctx (fine ctx) s ->
  shaped s = true /\ plain s = true /\ fine_selector ctx (fine ctx) s /\ forallb (fun c => negb (is_scope c)) s = true /\ leads_single ctx s.
Proof. intros ctx q; destruct q as [|a q]; [|destruct a; destruct q as [|b q]; try destruct b]; intros O H; try discriminate; exact H. Qed.
Lemma from_other : forall f0 txt s (e x : E), (match s with Scope :: Comb _ :: _ => false | _ => true end) = true ->
  match s with [] | Comb _ :: _ => False | _ => True end ->
  from w txt f0 s e x <-> run w f0 (moved w Descendant (eq e)) s x.
Proof. intros f0 txt q; destruct q as [|a q]; [|destruct a; destruct q as [|b q]; try destruct b]; intros e x O H; try discriminate; try contradiction; reflexivity. Qed.
Lemma from_text : forall f0 s (e x : E), match s with [] | Comb _ :: _ => False | _ => True end ->
  from w true f0 s e x <-> run w f0 (moved w Descendant (eq e)) s x.
Proof. intros f0 q; destruct q as [|a q]; [|destruct a; destruct q as [|b q]; try destruct b]; intros e x H; try contradiction; reflexivity. Qed.
Record good_rel (ctx : list (list selector)) (s t : list part) : Prop := {
  r_args : complete (after_comb t) && plain t && forallb well_argued t = true;
  r_run : forall e x, from w true (sem w true (fun _ => False)) t e x <-> from w false (sem w false (enclosing w ctx)) s e x;
  r_spec : closed_in ctx s -> total TS t = match s with Scope :: ((Comb _ :: _) as x) => total (NS ctx) x | _ => total (NS ctx) s end
}.
Lemma relative_good : forall ctx s t, fine_context ctx -> fine_relative ctx (fine ctx) s ->
  serialize f dest ctx true s = Some t -> good_rel ctx s t.
Proof.
  intros ctx s t C F H. destruct f as [|g]; [discriminate|]. destruct (relative_shape s) as [[k [r ->]]|O].
  - rewrite serialize_scope in H. apply app_opt_some in H. destruct H as [a [t0 [A [H ->]]]]. injection A as <-. cbn [app].
    cbn [fine_relative] in F. destruct F as [F1 [F2 [F3 [F4 F5]]]].
    pose proof (IH ctx r t0 C (conj F1 F3) H) as G. constructor.
    + cbn [after_comb plain forallb well_argued andb]. unfold complete. rewrite (g_scan _ _ _ G), (g_args _ _ _ G).
      change (forallb _ t0) with (plain t0) at 1. rewrite (g_plain _ _ _ G F2). reflexivity.
    + intros e x. cbn [from]. apply (g_run _ _ _ G). right. exact F5.
    + intros CL. cbn [total]. unfold NS, TS at 1. cbn [specificity]. rewrite !t_add_0_l. apply (g_spec _ _ _ G).
      apply closed_cons in CL. destruct CL as [_ CL]. apply closed_cons in CL. exact (proj2 CL).
  - destruct (fine_relative_other ctx s O F) as [F1 [F2 [F3 [F4 F5]]]].
    rewrite serialize_free in H by exact F4. pose proof (IH ctx s t C (conj F1 F3) H) as G.
    pose proof (scan_head _ (g_scan _ _ _ G)) as HT. constructor.
    + replace (after_comb t) with t by (destruct t as [|a q]; [|destruct a]; reflexivity || contradiction).
      unfold complete. rewrite (g_scan _ _ _ G), (g_args _ _ _ G), (g_plain _ _ _ G F2). reflexivity.
    + intros e x. rewrite from_text by exact HT. rewrite from_other by (exact O || exact (steps_head _ F1)).
      apply (g_run _ _ _ G). right. exact F5.
    + intros CL. rewrite (g_spec _ _ _ G CL). clear -O. destruct s as [|a q]; [|destruct a; destruct q as [|b q]; try destruct b]; try discriminate; reflexivity.
Qed.
Lemma relatives_good : forall ctx l x, fine_context ctx -> Forall (fine_relative ctx (fine ctx)) l ->
  map_opt (serialize f dest ctx true) l = Some x -> Forall2 (good_rel ctx) l x.
Proof.
  intros ctx l x C F H. apply map_opt_some in H. induction H as [|s t l x G H IHl]; [constructor|].
  inversion F; subst. constructor; [apply relative_good; assumption|auto].
Qed.
Lemma rel_somewhere : forall ctx l x, Forall2 (good_rel ctx) l x -> forall e,
  somewhere w true (sem w true (fun _ => False)) x e <-> somewhere w false (sem w false (enclosing w ctx)) l e.
Proof.
  intros ctx l x H. induction H as [|s t l x G H IHl]; intros e; cbn [somewhere]; [tauto|].
  rewrite IHl. split; (intros [[y Y]|Y]; [left; exists y; apply (r_run _ _ _ G); exact Y|right; exact Y]).
Qed.
Lemma rel_most : forall ctx l x, Forall2 (good_rel ctx) l x -> Forall (closed_in ctx) l ->
  most_relative true TS x = most_relative false (NS ctx) l.
Proof.
  intros ctx l x H. induction H as [|s t l x G H IHl]; intros C; cbn [most_relative]; [reflexivity|].
  inversion C; subst. rewrite IHl by assumption. f_equal. pose proof (r_spec _ _ _ G H2) as Q.
  rewrite <- Q. destruct t as [|a q]; [|destruct a; destruct q as [|b q]; try destruct b]; reflexivity.
Qed.
Lemma rel_args : forall ctx l x, Forall2 (good_rel ctx) l x ->
  forallb (fun s => complete (after_comb s) && plain s && forallb well_argued s) x = true.
Proof.
  intros ctx l x H. induction H as [|s t l x G H IHl]; cbn [forallb]; [reflexivity|]. rewrite (r_args _ _ _ G), IHl. reflexivity.
Qed.

Lemma read_read : forall P c e, T P [c] e <-> read_part w (sem w true (fun _ => False)) P c e.
Proof. reflexivity. Qed.
Lemma no_scopes_map : forall ctx l, no_scopes l -> map_opt (serialize f dest ctx true) l = map_opt (serialize f dest ctx false) l.
Proof.
  intros ctx l N. apply map_opt_ext. induction l as [|s l IHl]; intros x X; [contradiction|]. destruct N as [N1 N2].
  destruct X as [<-|X]; [apply serialize_free; exact N1|auto].
Qed.
Lemma one_compound_simple : forall s, plain s = true -> one_compound s = true -> is_simple s = true.
Proof.
  induction s as [|c s IHs]; intros A B; [reflexivity|]. apply forallb_cons in A. apply forallb_cons in B.
  destruct A as [A1 A2], B as [B1 B2]. unfold is_simple. cbn [forallb]. apply andb_true_iff. split; [|exact (IHs A2 B2)].
  destruct c; auto.
Qed.
Lemma simple_one_compound : forall s, is_simple s = true -> one_compound s = true.
Proof.
  intros s H. apply forallb_forall. intros c C. apply (proj1 (forallb_forall _ _) H) in C. destruct c; auto.
Qed.
Lemma nest_free_head : forall s, forallb nest_free s = true -> starts_with is_nesting s = false.
Proof. intros q; destruct q as [|a q]; [|destruct a]; intros H; try reflexivity. discriminate. Qed.

(** A functional pseudo-class whose argument list is printed. *)
Lemma fun_good : forall ctx c d l x, Forall2 (good ctx) l x -> Forall (fun s => plain s = true) l ->
  (forall st, next st d = Some false) -> is_type c = false -> plain [d] = true -> is_simple [d] = true ->
  well_argued d = forallb (fun s => complete s && plain s && forallb well_argued s) x ->
  (forall P e, T P [d] e <-> R ctx P [c] e) ->
  (closed_part ctx c -> TS d = NS ctx c) ->
  good1 ctx c [d].
Proof.
  intros ctx c d l x G P N TC PD SD W RN SP. constructor; auto.
  - rewrite TC. intros st. cbn [scan]. rewrite N. reflexivity.
  - cbn [forallb]. rewrite W, (good_list _ _ _ G P). reflexivity.
  - intros CL. cbn [total]. rewrite t_add_0_r. auto.
Qed.
Lemma one_good : forall ctx c t, fine_context ctx -> fine ctx c -> (match c with Comb _ => false | _ => true end) = true ->
  one_of f dest ctx c = Some t -> good1 ctx c t.
Proof.
  intros ctx c t C F NC H. destruct c as [k| | n | n | n | | | l | l | l | l | l | n l | s | s]; cbn [one_of] in H; try discriminate.
  1-5: injection H as <-; constructor; try reflexivity; try (cbn; reflexivity); try (intros; reflexivity); try discriminate;
    (intros; cbn [total]; rewrite t_add_0_r; reflexivity).
  - apply nest_inner; assumption.
  - cbn [fine] in F. destruct F as [FA FU]. apply fine_args_in in FA. destruct (unwraps l) eqn:U.
    + destruct l as [|s0 [|s1 l]]; try discriminate. cbn [hd] in *. destruct (FU eq_refl) as [S TY].
      inversion FA as [|a b [A B] D]; subst. pose proof (IH ctx s0 t C B H) as G. constructor.
      * cbn [is_type]. intros [|]; [apply (g_scan _ _ _ G)|apply (g_typeless _ _ _ G TY)].
      * apply (g_args _ _ _ G).
      * intros _. apply (g_plain _ _ _ G A).
      * intros _. apply (g_single _ _ _ G S).
      * intros P e. rewrite (g_run _ _ _ G) by (right; apply single_leads; exact S). unfold R at 1.
        rewrite run_simple by (eapply single_simple; exact S). unfold R, run. cbn [fold_left read_part sem some]. tauto.
      * intros CL. rewrite (g_spec _ _ _ G). { unfold NS. cbn [specificity most]. rewrite t_max_0_r. reflexivity. }
        assert (Q : Forall (closed_in ctx) [s0]) by (apply (closed_list ctx (Is [s0])); [reflexivity|exact CL]). now inversion Q.
    + apply option_map_some in H. destruct H as [x [H ->]]. destruct (IH_list _ _ _ C FA H) as [G P].
      apply (fun_good ctx _ _ l x); auto.
      * intros Q e. unfold T, R, run. cbn [fold_left read_part sem]. rewrite (good_some _ _ _ G). reflexivity.
      * intros CL. apply (good_most _ _ _ G). apply (closed_list ctx (Is l)); [reflexivity|exact CL].
  - cbn [fine] in F. apply fine_args_in in F. apply option_map_some in H. destruct H as [x [H ->]]. destruct (IH_list _ _ _ C F H) as [G P].
    apply (fun_good ctx _ _ l x); auto.
    intros Q e. unfold T, R, run. cbn [fold_left read_part sem]. rewrite (good_some _ _ _ G). reflexivity.
  - cbn [fine] in F. apply fine_args_in in F. apply option_map_some in H. destruct H as [x [H ->]]. destruct (IH_list _ _ _ C F H) as [G P].
    apply (fun_good ctx _ _ l x); auto.
    + intros Q e. unfold T, R, run. cbn [fold_left read_part sem]. rewrite (good_some _ _ _ G). reflexivity.
    + intros CL. apply (good_most _ _ _ G). apply (closed_list ctx (Any l)); [reflexivity|exact CL].
  - cbn [fine] in F. apply fine_args_in in F. apply option_map_some in H. destruct H as [x [H ->]]. destruct (IH_list _ _ _ C F H) as [G P].
    apply (fun_good ctx _ _ l x); auto.
    + intros Q e. unfold T, R, run. cbn [fold_left read_part sem]. rewrite (good_some _ _ _ G). reflexivity.
    + intros CL. apply (good_most _ _ _ G). apply (closed_list ctx (Not l)); [reflexivity|exact CL].
  - cbn [fine] in F. apply fine_relatives_in in F. apply option_map_some in H. destruct H as [x [H ->]].
    pose proof (relatives_good _ _ _ C F H) as G. constructor; try reflexivity; try (cbn; reflexivity).
    + cbn [forallb well_argued]. rewrite (rel_args _ _ _ G). reflexivity.
    + intros Q e. unfold T, R, run. cbn [fold_left read_part sem]. rewrite (rel_somewhere _ _ _ G). reflexivity.
    + intros CL. cbn [total]. rewrite t_add_0_r. apply (rel_most _ _ _ G). apply (closed_list ctx (Has l)); [reflexivity|exact CL].
  - cbn [fine] in F. destruct F as [F NSC]. apply fine_args_in in F. apply option_map_some in H. destruct H as [x [H ->]].
    rewrite no_scopes_map in H by exact NSC. destruct (IH_list _ _ _ C F H) as [G P].
    apply (fun_good ctx _ _ l x); auto.
    + intros Q e. unfold T, R, run. cbn [fold_left read_part sem].
      split; intros [A B]; (split; [exact A|]); (eapply EXT; [|exact B]); intros y; rewrite (good_some _ _ _ G); reflexivity.
    + intros CL. unfold TS, NS. cbn [specificity]. f_equal. apply (good_most _ _ _ G).
      apply (closed_list ctx (NthOf n l)); [reflexivity|exact CL].
  - cbn [fine] in F. destruct F as [F [NF OC]]. apply fine_args_in in F. inversion F as [|a b [A B] D]; subst.
    apply option_map_some in H. destruct H as [x [H ->]]. rewrite (serialize_nest_free f dest dest ctx) in H by exact NF.
    pose proof (IH ctx s x C B H) as G.
    assert (S : single ctx s).
    { destruct ctx as [|? ?]; (split; [apply one_compound_simple; assumption|]); rewrite nest_free_head by exact NF; discriminate. }
    constructor; try reflexivity; try (cbn; reflexivity).
    + cbn [forallb well_argued]. unfold complete. rewrite (g_scan _ _ _ G), (g_plain _ _ _ G A), (g_args _ _ _ G).
      rewrite (simple_one_compound _ (g_single _ _ _ G S)). reflexivity.
    + intros Q e. unfold T, R, run. cbn [fold_left read_part sem]. rewrite (good_ends _ _ _ e G). reflexivity.
    + intros CL. cbn [total]. rewrite t_add_0_r. unfold TS, NS. cbn [specificity]. f_equal. apply (g_spec _ _ _ G).
      destruct ctx as [|? ?]; [exact NF|exact CL].
  - cbn [fine] in F. destruct F as [F [NF OC]]. apply fine_args_in in F. inversion F as [|a b [A B] D]; subst.
    apply option_map_some in H. destruct H as [x [H ->]]. rewrite (serialize_nest_free f dest dest ctx) in H by exact NF.
    pose proof (IH ctx s x C B H) as G.
    assert (S : single ctx s).
    { destruct ctx as [|? ?]; (split; [apply one_compound_simple; assumption|]); rewrite nest_free_head by exact NF; discriminate. }
    constructor; try reflexivity; try discriminate; try (cbn; reflexivity).
    + cbn [forallb well_argued]. unfold complete. rewrite (g_scan _ _ _ G), (g_plain _ _ _ G A), (g_args _ _ _ G).
      rewrite (simple_one_compound _ (g_single _ _ _ G S)). reflexivity.
    + intros Q e. unfold T, R, run. cbn [fold_left read_part sem]. rewrite (good_ends _ _ _ e G). reflexivity.
    + intros CL. cbn [total]. rewrite t_add_0_r. unfold TS, NS. cbn [specificity]. f_equal. apply (g_spec _ _ _ G).
      destruct ctx as [|? ?]; [exact NF|exact CL].
Qed.

(** *** Lists of components *)
(** [L]: from which predicates the printed list runs like the other; [S]: when a simple list stays simple. *)
Record pg (L : (E -> Prop) -> Prop) (S : Prop) (ctx : list (list selector)) (c t : list part) : Prop := {
  p_args : forallb well_argued t = true;
  p_plain : plain c = true -> plain t = true;
  p_simple : S -> is_simple c = true -> is_simple t = true;
  p_run : forall P e, L P -> T P t e <-> R ctx P c e;
  p_spec : closed_in ctx c -> total TS t = total (NS ctx) c
}.
Definition anyp : (E -> Prop) -> Prop := fun _ => True.
Lemma pg_nil : forall L S ctx, pg L S ctx [] [].
Proof. intros. constructor; auto; intros; reflexivity. Qed.
Lemma pg_one : forall ctx c t, good1 ctx c t -> pg anyp True ctx [c] t.
Proof.
  intros ctx c t G. constructor.
  - apply (h_args _ _ _ G).
  - apply (h_plain _ _ _ G).
  - intros _. apply (h_simple _ _ _ G).
  - intros P e _. apply (h_run _ _ _ G).
  - intros C. cbn [total]. rewrite t_add_0_r. apply (h_spec _ _ _ G). apply closed_cons in C. exact (proj1 C).
Qed.
Lemma pg_app : forall L S ctx c t c' t', pg L S ctx c t -> pg anyp True ctx c' t' -> pg L S ctx (c ++ c') (t ++ t').
Proof.
  intros L S ctx c t c' t' A B. constructor.
  - rewrite forallb_app, (p_args _ _ _ _ _ A), (p_args _ _ _ _ _ B). reflexivity.
  - unfold plain. rewrite !forallb_app, !andb_true_iff. intros [X Y]. split; [exact (p_plain _ _ _ _ _ A X)|exact (p_plain _ _ _ _ _ B Y)].
  - intros SS. unfold is_simple. rewrite !forallb_app, !andb_true_iff. intros [X Y].
    split; [exact (p_simple _ _ _ _ _ A SS X)|exact (p_simple _ _ _ _ _ B I Y)].
  - intros P e LP. rewrite T_app, R_app. rewrite (p_run _ _ _ _ _ B) by exact I. apply R_ext. intros x. apply (p_run _ _ _ _ _ A). exact LP.
  - intros C. apply closed_app in C. destruct C as [C1 C2]. rewrite !total_app, (p_spec _ _ _ _ _ A C1), (p_spec _ _ _ _ _ B C2). reflexivity.
Qed.
Lemma pg_weaken : forall (L L' : (E -> Prop) -> Prop) (S S' : Prop) ctx c t, (forall P, L' P -> L P) -> (S' -> S) -> pg L S ctx c t -> pg L' S' ctx c t.
Proof.
  intros L L' S S' ctx c t HL HS G. constructor.
  - apply (p_args _ _ _ _ _ G).
  - apply (p_plain _ _ _ _ _ G).
  - intros X. apply (p_simple _ _ _ _ _ G (HS X)).
  - intros P e X. apply (p_run _ _ _ _ _ G). auto.
  - apply (p_spec _ _ _ _ _ G).
Qed.
Lemma pg_any : forall L S ctx c t, pg anyp True ctx c t -> pg L S ctx c t.
Proof. intros L S ctx c t. apply pg_weaken; unfold anyp; auto. Qed.
Lemma pg_comb : forall ctx k, pg anyp True ctx [Comb k] [Comb k].
Proof. intros. constructor; auto; intros; reflexivity. Qed.
(** A universal selector that is not printed. *)
Lemma pg_univ : forall ctx c t, pg anyp True ctx c t -> pg anyp True ctx (Univ :: c) t.
Proof.
  intros ctx c t G. constructor.
  - apply (p_args _ _ _ _ _ G).
  - apply (p_plain _ _ _ _ _ G).
  - apply (p_simple _ _ _ _ _ G).
  - intros P e _. rewrite R_cons, (p_run _ _ _ _ _ G) by exact I. apply R_ext. intros x. cbn [read_part sem]. tauto.
  - intros C. apply closed_cons in C. rewrite (p_spec _ _ _ _ _ G (proj2 C)). cbn [total]. unfold NS at 2. cbn [specificity].
    rewrite t_add_0_l. reflexivity.
Qed.
Lemma pg_swap : forall ctx x r t, is_type x = true -> pg anyp True ctx (x :: Nesting :: r) t -> pg anyp True ctx (Nesting :: x :: r) t.
Proof.
  intros ctx x r t X G. constructor.
  - apply (p_args _ _ _ _ _ G).
  - intros P. apply (p_plain _ _ _ _ _ G). unfold plain in *. cbn [forallb] in *. exact P.
  - intros _ P. apply (p_simple _ _ _ _ _ G I). unfold is_simple in *. cbn [forallb] in *. exact P.
  - intros P e _. rewrite (p_run _ _ _ _ _ G) by exact I. rewrite !R_cons. apply R_ext. intros y.
    destruct x; try discriminate; cbn [read_part sem]; tauto.
  - intros C. rewrite (p_spec _ _ _ _ _ G). 2: { apply closed_cons in C. destruct C as [C1 C]. apply closed_cons in C. destruct C as [C2 C].
      apply closed_cons. split; [exact C2|]. apply closed_cons. split; [exact C1|exact C]. }
    cbn [total]. rewrite !t_add_assoc. f_equal. apply t_add_comm.
Qed.

Lemma all_cons : forall one x l, all one (x :: l) = app_opt (one x) (all one l).
Proof. intros one x l. unfold all. cbn [map_opt]. destruct (one x) as [a|]; [|reflexivity]. cbn. destruct (map_opt one l); reflexivity. Qed.

(** *** One compound *)
Lemma elided_good : forall ctx c t, fine_context ctx -> fine_parts (fine ctx) c -> no_comb c -> untyped c = true ->
  elided (one_of f dest ctx) c = Some t ->
  (forall st, scan st t = Some (match c with [] => st | _ => false end)) /\ pg anyp True ctx c t.
Proof.
  intros ctx c t C. revert t. induction c as [|x c IHc]; intros t F N U H.
  - cbn in H. injection H as <-. split; [reflexivity|apply pg_nil].
  - destruct F as [F1 F2]. apply forallb_cons in N. destruct N as [N1 N2]. apply forallb_cons in U. destruct U as [U1 U2].
    assert (X : elided (one_of f dest ctx) (x :: c) = app_opt (one_of f dest ctx x) (elided (one_of f dest ctx) c)).
    { unfold elided. cbn [filter]. destruct x; try discriminate; apply all_cons. }
    rewrite X in H. apply app_opt_some in H. destruct H as [a [b [A [B ->]]]].
    pose proof (one_good ctx x a C F1 N1 A) as G. destruct (IHc b F2 N2 U2 B) as [SC PG].
    split; [|apply (pg_app _ _ ctx [x] a c b); [apply pg_one; exact G|exact PG]].
    intros st. rewrite scan_app. pose proof (h_scan _ _ _ G) as S. apply negb_true_iff in U1. rewrite U1 in S. rewrite S, SC. destruct c; reflexivity.
Qed.
Lemma compound_later : forall ctx c t, fine_context ctx -> fine_parts (fine ctx) c -> no_comb c -> c <> [] -> untyped (tl c) = true ->
  match c with [Univ] => one_of f dest ctx Univ | _ => elided (one_of f dest ctx) c end = Some t ->
  scan true t = Some false /\ (has_type c = false -> scan false t = Some false) /\ pg anyp True ctx c t.
Proof.
  intros ctx c t C F N NE U H. destruct c as [|x c]; [congruence|]. cbn [tl] in U. pose proof F as [F1 F2].
  pose proof N as N'. apply forallb_cons in N'. destruct N' as [N1 N2].
  assert (UN : x = Univ \/ x <> Univ /\ match x :: c with [Univ] => one_of f dest ctx Univ | _ => elided (one_of f dest ctx) (x :: c) end = elided (one_of f dest ctx) (x :: c)).
  { destruct x; auto; right; split; auto; discriminate. }
  destruct UN as [->|[NU UN]].
  - destruct c as [|y c].
    + injection H as <-. split; [reflexivity|]. split; [discriminate|]. apply pg_one. apply one_good; auto.
    + change (elided (one_of f dest ctx) (Univ :: y :: c)) with (elided (one_of f dest ctx) (y :: c)) in H.
      destruct (elided_good ctx (y :: c) t C F2 N2 U H) as [SC PG]. split; [apply SC|]. split; [discriminate|]. apply pg_univ. exact PG.
  - rewrite UN in H. clear UN. destruct (is_type x) eqn:TX.
    + destruct x; try discriminate; [congruence|].
      change (elided (one_of f dest ctx) (Local n :: c)) with (all (one_of f dest ctx) (Local n :: filter (fun c => match c with Univ => false | _ => true end) c)) in H.
      rewrite all_cons in H. apply app_opt_some in H. destruct H as [a [b [A [B ->]]]].
      pose proof (one_good ctx (Local n) a C F1 N1 A) as G. destruct (elided_good ctx c b C F2 N2 U B) as [SC PG].
      split; [|split; [discriminate|apply (pg_app _ _ ctx [Local n] a c b); [apply pg_one; exact G|exact PG]]].
      rewrite scan_app. pose proof (h_scan _ _ _ G) as S. cbn [is_type] in S. rewrite S. cbn [scan next]. rewrite SC. destruct c; reflexivity.
    + assert (UU : untyped (x :: c) = true) by (unfold untyped; cbn [forallb]; rewrite TX; exact U).
      destruct (elided_good ctx (x :: c) t C F N UU H) as [SC PG]. split; [apply SC|]. split; [intros _; apply SC|exact PG].
Qed.

(** The [&] at the start. *)
Definition sing (ctx : list (list selector)) : Prop := match ctx with [p] :: r => single r p | _ => True end.
Definition typl (ctx : list (list selector)) : Prop := match ctx with [p] :: r => typeless r p | _ => True end.
Definition leading (ctx : list (list selector)) (P : E -> Prop) : Prop := (forall e, P e) \/ sing ctx.
Lemma nest_first : forall ctx t, fine_context ctx -> nest_of f dest ctx true = Some t ->
  scan true t = Some false /\ (typl ctx -> scan false t = Some false) /\ pg (leading ctx) (sing ctx) ctx [Nesting] t.
Proof.
  intros ctx t C H. 
  assert (G1 : good1 ctx Nesting t ->
    scan true t = Some false /\ (typl ctx -> scan false t = Some false) /\ pg (leading ctx) (sing ctx) ctx [Nesting] t).
  { intros G. pose proof (h_scan _ _ _ G) as S. cbn [is_type] in S. split; [apply S|]. split; [intros _; apply S|]. apply pg_any, pg_one, G. }
  destruct ctx as [|l r].
  { cbn in H. injection H as <-. apply G1. apply nest_root. }
  destruct l as [|p [|q l]]; cbn [nest_of] in H.
  - apply option_map_some in H. destruct H as [x [X ->]]. apply G1. apply nest_is; assumption.
  - cbn [orb] in H. destruct C as [F C]. inversion F as [|a b [A B] D]; subst.
    pose proof (IH r p t C A H) as G. split; [apply (g_scan _ _ _ G)|]. split; [apply (g_typeless _ _ _ G)|].
    constructor.
    + apply (g_args _ _ _ G).
    + intros _. apply (g_plain _ _ _ G B).
    + intros S _. apply (g_single _ _ _ G S).
    + intros P e [LP|LP].
      * rewrite (g_run _ _ _ G) by (left; exact LP). unfold R at 1. rewrite run_all by exact LP.
        unfold R, run. cbn [fold_left read_part sem enclosing some]. pose proof (LP e). tauto.
      * cbn [sing] in LP. rewrite (g_run _ _ _ G) by (right; apply single_leads; exact LP). unfold R at 1.
        rewrite run_simple by (eapply single_simple; exact LP). unfold R, run. cbn [fold_left read_part sem enclosing some]. tauto.
    + cbn [closed_in]. intros RT. rewrite (g_spec _ _ _ G) by (apply rooted_up; exact RT).
      cbn [total]. unfold NS at 2. cbn [specificity enclosing_spec most]. rewrite t_max_0_r, t_add_0_r. reflexivity.
  - apply option_map_some in H. destruct H as [x [X ->]]. apply G1. apply nest_is; assumption.
Qed.
Lemma compound_lead : forall ctx c t, fine_context ctx -> (has_type c = true -> replaceable ctx) -> fine_parts (fine ctx) c ->
  no_comb c -> untyped (tl c) = true -> compound (nest_of f dest ctx) (one_of f dest ctx) true (Nesting :: c) = Some t ->
  scan true t = Some false /\ (has_type c = false -> typl ctx -> scan false t = Some false)
  /\ pg (fun P => has_type c = false -> leading ctx P) (has_type c = false -> sing ctx) ctx (Nesting :: c) t.
Proof.
  intros ctx c t C RP F N U H. unfold compound in H. cbn [is_nesting andb tl] in H.
  destruct c as [|x c].
  - apply app_opt_some in H. destruct H as [a [b [A [B ->]]]]. destruct (nest_first ctx a C A) as [S1 [S2 PG]].
    cbn in B. injection B as <-. rewrite app_nil_r. split; [exact S1|]. split; [auto|]. eapply pg_weaken; [| |exact PG]; cbn; auto.
  - destruct F as [F1 F2]. cbn [tl] in U. apply forallb_cons in N. destruct N as [N1 N2].
    destruct (is_type x) eqn:TX.
    + assert (HT : has_type (x :: c) = true) by exact TX. rewrite HT. specialize (RP HT).
      assert (K : exists a b q, a = [x] /\ nest_of f dest ctx false = Some b /\ elided (one_of f dest ctx) c = Some q /\ t = a ++ b ++ q).
      { destruct x; try discriminate.
        - destruct c as [|y c].
          + apply app_opt_some in H. destruct H as [a [b [A [B ->]]]]. injection A as <-. exists [Univ], b, []. rewrite app_nil_r. auto.
          + apply app_opt_some in H. destruct H as [a [b [A [B ->]]]]. apply app_opt_some in B. destruct B as [b1 [b2 [B [B2 ->]]]].
            cbn in A. injection A as <-. cbn [one_of] in B. exists [Univ], b1, b2. auto.
        - apply app_opt_some in H. destruct H as [a [b [A [B ->]]]]. apply app_opt_some in B. destruct B as [b1 [b2 [B [B2 ->]]]].
          cbn in A. injection A as <-. cbn [one_of] in B. exists [Local n], b1, b2. auto. }
      destruct K as [a [b [q [-> [B [Q ->]]]]]].
      assert (GX : good1 ctx x [x]) by (apply one_good; auto; destruct x; try discriminate; reflexivity).
      pose proof (nest_inner ctx b C RP B) as GN. destruct (elided_good ctx c q C F2 N2 U Q) as [SC PG].
      split; [|split; [discriminate|]].
      * rewrite scan_app. replace (scan true [x]) with (Some false) by (destruct x; try discriminate; reflexivity).
        rewrite scan_app. pose proof (h_scan _ _ _ GN) as S. cbn [is_type] in S. rewrite S, SC. destruct c; reflexivity.
      * apply pg_any. apply pg_swap; [exact TX|]. 
        apply (pg_app _ _ ctx [x] [x] (Nesting :: c) (b ++ q)); [apply pg_one; exact GX|].
        apply (pg_app _ _ ctx [Nesting] b c q); [apply pg_one; exact GN|exact PG].
    + assert (HT : has_type (x :: c) = false) by exact TX. rewrite HT.
      assert (K : exists b q, nest_of f dest ctx true = Some b /\ elided (one_of f dest ctx) (x :: c) = Some q /\ t = b ++ q).
      { destruct x; try discriminate; apply app_opt_some in H; destruct H as [a [b [A [B ->]]]]; eauto. }
      destruct K as [b [q [B [Q ->]]]]. destruct (nest_first ctx b C B) as [S1 [S2 PG]].
      assert (UU : untyped (x :: c) = true) by (unfold untyped; cbn [forallb]; rewrite TX; exact U).
      destruct (elided_good ctx (x :: c) q C (conj F1 F2) (proj2 (forallb_cons _ _ _ _) (conj N1 N2)) UU Q) as [SC PQ].
      split; [|split].
      * rewrite scan_app, S1, SC. reflexivity.
      * intros _ TL. rewrite scan_app, (S2 TL), SC. reflexivity.
      * eapply pg_weaken; [intros P X; exact (X eq_refl)|intros X; exact (X eq_refl)|].
        exact (pg_app _ _ ctx [Nesting] b (x :: c) q PG PQ).
Qed.

(** *** The compounds after the first *)
Lemma fine_parts_app : forall g a b, fine_parts g (a ++ b) <-> fine_parts g a /\ fine_parts g b.
Proof. intros g a b. induction a as [|c a IHa]; cbn [fine_parts app]; tauto. Qed.
Lemma compounds_cons : forall nest one first c cs ks, c <> [] -> compounds nest one false first (c :: cs) ks =
  app_opt (compound nest one first c)
    (app_opt (Some (match ks with k :: _ => [Comb k] | [] => [] end)) (compounds nest one false false cs (tl ks))).
Proof.
  intros nest one first c cs ks N. cbn [compounds andb]. destruct c as [|x c]; [congruence|].
  destruct (compound nest one first (x :: c)) as [a|]; [|reflexivity]. cbn. destruct (compounds nest one false false cs (tl ks)); reflexivity.
Qed.
Lemma compound_false : forall nest one c, compound nest one false c = match c with [Univ] => one Univ | _ => elided one c end.
Proof. intros. unfold compound. cbn [andb]. destruct c as [|a q]; [|destruct a; destruct q]; reflexivity. Qed.
Lemma steps_join : forall n c k r m, steps n (c ++ Comb k :: r) = Some m -> exists q, steps n c = Some q /\ (q = 1 \/ q = 2 \/ 3 < q) /\ steps 3 r = Some m.
Proof.
  intros n c k r m H. rewrite steps_app in H. destruct (steps n c) as [q|]; [|discriminate]. exists q. split; [reflexivity|].
  cbn [steps] in H. destruct q as [|[|[|[|q]]]]; cbn [step] in H; try discriminate; split; auto; right; right; lia.
Qed.
Lemma rest_good : forall ctx cs ks t, fine_context ctx -> length cs = S (length ks) -> Forall no_comb cs ->
  steps 3 (join cs ks) = Some 2 -> fine_parts (fine ctx) (join cs ks) ->
  compounds (nest_of f dest ctx) (one_of f dest ctx) false false cs ks = Some t ->
  scan true t = Some false /\ pg anyp True ctx (join cs ks) t.
Proof.
  intros ctx cs ks t C. revert ks t. induction cs as [|c cs IHc]; intros ks t L N ST F H; [discriminate|].
  inversion N as [|y z NC NR]; subst.
  destruct ks as [|k ks]; cbn [join] in *.
  - destruct cs as [|? ?]; [|discriminate].
    assert (NE : c <> []) by (intros ->; discriminate).
    rewrite compounds_cons in H by exact NE. apply app_opt_some in H. destruct H as [a [b [A [B ->]]]].
    cbn in B. injection B as <-. rewrite app_nil_r. rewrite compound_false in A.
    destruct (steps_3 _ _ NC NE ST) as [_ U]. destruct (compound_later ctx c a C F NC NE U A) as [S1 [_ PG]]. auto.
  - destruct (steps_join _ _ _ _ _ ST) as [q [Q1 [Q2 Q3]]].
    assert (NE : c <> []). { intros ->. cbn in Q1. injection Q1 as <-. destruct Q2 as [Q2|[Q2|Q2]]; lia. }
    apply fine_parts_app in F. destruct F as [F1 [_ F2]].
    rewrite compounds_cons in H by exact NE. apply app_opt_some in H. destruct H as [a [b [A [B ->]]]].
    apply app_opt_some in B. destruct B as [b1 [b2 [B1 [B2 ->]]]]. injection B1 as <-. cbn [tl] in B2. rewrite compound_false in A.
    destruct (steps_3 _ _ NC NE Q1) as [_ U]. destruct (compound_later ctx c a C F1 NC NE U A) as [S1 [_ PG]].
    injection L as L. destruct (IHc ks b2 L NR Q3 F2 B2) as [S2 PG2].
    split; [rewrite scan_app, S1; exact S2|].
    apply pg_app; [exact PG|]. apply (pg_app _ _ ctx [Comb k] [Comb k]); [apply pg_comb|exact PG2].
Qed.

(** *** A selector *)
Definition lead_of (ctx : list (list selector)) (s : list part) (P : E -> Prop) : Prop :=
  starts_with is_nesting s = true -> has_type (tl s) = false -> leading ctx P.
Lemma first_good : forall ctx c t m, fine_context ctx -> no_comb c -> c <> [] -> steps 0 c = Some m ->
  fine_selector ctx (fine ctx) c -> compound (nest_of f dest ctx) (one_of f dest ctx) true c = Some t ->
  scan true t = Some false /\ (typeless ctx c -> scan false t = Some false)
  /\ pg (lead_of ctx c) (starts_with is_nesting c = true -> has_type (tl c) = false -> sing ctx) ctx c t.
Proof.
  intros ctx c t m C N NE ST F H. destruct c as [|x c]; [congruence|].
  destruct (is_nesting x) eqn:NX.
  - destruct x; try discriminate. cbn [fine_selector] in F. destruct F as [RP F].
    apply forallb_cons in N. destruct N as [_ N]. cbn [steps step] in ST.
    assert (U : untyped (tl c) = true).
    { destruct c as [|y c]; [reflexivity|]. apply (steps_1 _ _ N) in ST; [exact (proj2 ST)|discriminate]. }
    destruct (compound_lead ctx c t C RP F N U H) as [S1 [S2 PG]].
    split; [exact S1|]. split.
    + intros TL. assert (TT : has_type c = false /\ typl ctx).
      { destruct ctx as [|[|p [|q l]] r]; cbn [typeless] in TL; destruct TL as [_ TL]; specialize (TL eq_refl); cbn [tl typl] in *; tauto. }
      apply S2; apply TT.
    + eapply pg_weaken; [| |exact PG].
      * intros P X. exact (X eq_refl).
      * intros X. exact (X eq_refl).
  - destruct (steps_0 _ _ _ N NX ST) as [_ U].
    assert (F' : fine_parts (fine ctx) (x :: c)) by (destruct x; try discriminate; exact F).
    assert (H' : match x :: c with [Univ] => one_of f dest ctx Univ | _ => elided (one_of f dest ctx) (x :: c) end = Some t).
    { unfold compound in H. rewrite NX in H. cbn [andb] in H. destruct x; destruct c; exact H. }
    destruct (compound_later ctx (x :: c) t C F' N NE U H') as [S1 [S2 PG]].
    split; [exact S1|]. split; [|apply pg_any; exact PG].
    intros TL. apply S2. destruct ctx; exact (proj1 TL).
Qed.
Lemma starts_app : forall p c s, c <> [] -> starts_with p (c ++ s) = starts_with p c.
Proof. intros p [|x c] s H; [congruence|reflexivity]. Qed.
Lemma lead_app : forall c k s, c <> [] -> starts_with is_nesting c = true -> has_type (tl (c ++ Comb k :: s)) = has_type (tl c).
Proof. intros [|x [|y c]] k s H N; [congruence|reflexivity|reflexivity]. Qed.
Lemma fine_selector_app : forall ctx c s, c <> [] -> (match s with x :: _ => is_type x | [] => false end) = false ->
  fine_selector ctx (fine ctx) (c ++ s) -> fine_selector ctx (fine ctx) c /\ fine_parts (fine ctx) s.
Proof.
  intros ctx [|x c] s N B F; [congruence|].
  assert (K : forall a b, fine_parts (fine ctx) ((a :: c) ++ b) -> fine_parts (fine ctx) (a :: c) /\ fine_parts (fine ctx) b)
    by (intros a b Q; apply fine_parts_app; exact Q).
  destruct x; try (apply K; exact F). cbn [fine_selector app] in *. destruct F as [F1 F2]. apply fine_parts_app in F2. destruct F2 as [F2 F3].
  split; [split; [|exact F2]|exact F3]. intros X. apply F1. destruct c; [discriminate|exact X].
Qed.
Lemma typeless_app : forall ctx c k s, c <> [] -> typeless ctx (c ++ Comb k :: s) -> typeless ctx c.
Proof.
  intros ctx c k s N H. destruct c as [|x c]; [congruence|].
  destruct ctx as [|l r]; cbn [typeless app has_type starts_with tl] in *; destruct H as [A B]; split; auto; intros X; specialize (B X);
    destruct B as [B1 B2]; split; auto; destruct c; auto.
Qed.

Lemma serialize_good : forall ctx s t, fine_context ctx -> fine_in ctx s -> serialize (S f) dest ctx false s = Some t -> good ctx s t.
Proof.
  intros ctx s t C [SH F] H. rewrite serialize_S in H. pose proof (split_join s) as SJ. destruct (split s) as [cs ks].
  destruct SJ as [J [L N]]. destruct cs as [|c cs]; [discriminate|]. inversion N as [|y z NC NR]; subst y z.
  unfold shaped in SH. destruct (steps 0 s) as [m|] eqn:ST; [|discriminate].
  assert (M : m = 1 \/ m = 2) by (destruct m as [|[|[|m]]]; auto; discriminate). clear SH.
  assert (KEY : scan true t = Some false /\ (typeless ctx s -> scan false t = Some false)
    /\ pg (lead_of ctx s) (starts_with is_nesting s = true -> has_type (tl s) = false -> sing ctx) ctx s t).
  { destruct ks as [|k ks]; cbn [join] in J.
    - destruct cs as [|? ?]; [|discriminate]. subst c.
      assert (NE : s <> []) by (intros ->; cbn in ST; injection ST as <-; destruct M; discriminate).
      rewrite compounds_cons in H by exact NE. apply app_opt_some in H. destruct H as [a [b [A [B ->]]]].
      cbn in B. injection B as <-. rewrite app_nil_r. exact (first_good ctx s a m C NC NE ST F A).
    - subst s. destruct (steps_join _ _ _ _ _ ST) as [q [Q1 [Q2 Q3]]].
      assert (NE : c <> []). { intros ->. cbn in Q1. injection Q1 as <-. destruct Q2 as [Q2|[Q2|Q2]]; lia. }
      rewrite compounds_cons in H by exact NE. apply app_opt_some in H. destruct H as [a [b [A [B ->]]]].
      apply app_opt_some in B. destruct B as [b1 [b2 [B1 [B2 ->]]]]. injection B1 as <-. cbn [tl] in B2.
      destruct (fine_selector_app ctx c (Comb k :: join cs ks) NE eq_refl F) as [F1 [_ F2]].
      destruct (first_good ctx c a q C NC NE Q1 F1 A) as [S1 [S2 PG]].
      assert (M2 : m = 2).
      { destruct M as [M|M]; [|exact M]. exfalso. subst m. clear -Q3. 
        assert (G : forall s n m, (n = 2 \/ n = 3) -> steps n s = Some m -> m = 2 \/ m = 3).
        { induction s as [|x s IHs]; intros n m X Y; cbn [steps] in Y; [injection Y as <-; exact X|].
          destruct (step n x) as [o|] eqn:O; [|discriminate]. apply (IHs o m); [|exact Y].
          destruct X as [-> | ->]; destruct x; cbn in O; try discriminate; injection O as <-; auto. }
        destruct (G _ 3 1 (or_intror eq_refl) Q3); discriminate. }
      subst m. injection L as L.
      destruct (rest_good ctx cs ks b2 C L NR Q3 F2 B2) as [S3 PG3].
      split; [rewrite scan_app, S1; exact S3|]. split.
      + intros TL. rewrite scan_app, (S2 (typeless_app _ _ _ _ NE TL)). exact S3.
      + apply (pg_app _ _ ctx c a (Comb k :: join cs ks)).
        * eapply pg_weaken; [| |exact PG].
          -- unfold lead_of. intros P X Y Z. apply X; [rewrite starts_app by exact NE; exact Y|rewrite lead_app by assumption; exact Z].
          -- intros X Y Z. apply X; [rewrite starts_app by exact NE; exact Y|rewrite lead_app by assumption; exact Z].
        * apply (pg_app _ _ ctx [Comb k] [Comb k]); [apply pg_comb|exact PG3]. }
  destruct KEY as [K1 [K2 PG]]. constructor.
  - exact K1.
  - apply (p_args _ _ _ _ _ PG).
  - apply (p_plain _ _ _ _ _ PG).
  - intros S0. apply (p_simple _ _ _ _ _ PG); [|eapply single_simple; exact S0].
    intros X _. destruct ctx as [|[|p [|? ?]] r]; cbn [single sing] in *; auto. apply S0. exact X.
  - exact K2.
  - intros P e LP. apply (p_run _ _ _ _ _ PG). intros X Y. destruct LP as [LP|LP]; [left; exact LP|right].
    specialize (LP X Y). destruct ctx as [|[|p [|? ?]] r]; cbn [sing]; auto.
  - apply (p_spec _ _ _ _ _ PG).
Qed.
End Step.

Theorem all_good : forall f dest ctx s t, fine_context ctx -> fine_in ctx s -> serialize f dest ctx false s = Some t -> good ctx s t.
Proof.
  induction f as [|f IH]; intros dest ctx s t C F H; [discriminate|]. eapply serialize_good; eauto.
Qed.
End Main.

(** ** More fuel changes nothing *)
Definition le_opt {A} (x y : option A) : Prop := forall a, x = Some a -> y = Some a.
Lemma le_refl : forall A (x : option A), le_opt x x.
Proof. intros A x a H. exact H. Qed.
Lemma le_app : forall A (x x' y y' : option (list A)), le_opt x x' -> le_opt y y' -> le_opt (app_opt x y) (app_opt x' y').
Proof.
  intros A x x' y y' X Y a H. apply app_opt_some in H. destruct H as [p [q [P [Q ->]]]]. rewrite (X _ P), (Y _ Q). reflexivity.
Qed.
Lemma le_map : forall A B (f : A -> B) x y, le_opt x y -> le_opt (option_map f x) (option_map f y).
Proof. intros A B f x y H a X. apply option_map_some in X. destruct X as [b [X ->]]. rewrite (H _ X). reflexivity. Qed.
Lemma le_map_opt : forall A B (f g : A -> option B) l, (forall x, In x l -> le_opt (f x) (g x)) -> le_opt (map_opt f l) (map_opt g l).
Proof.
  intros A B f g. induction l as [|x l IH]; intros H r R; [exact R|]. cbn [map_opt] in *.
  destruct (f x) as [y|] eqn:F; [|discriminate]. cbn [bind] in R. destruct (map_opt f l) as [q|] eqn:M; [|discriminate].
  rewrite (H x (or_introl eq_refl) y F). cbn [bind]. rewrite (IH (fun z Z => H z (or_intror Z)) q eq_refl). exact R.
Qed.
Section Mono.
Variables nest nest' : bool -> option (list part).
Variables one one' : part -> option (list part).
Hypothesis NEST : forall b, le_opt (nest b) (nest' b).
Hypothesis ONE : forall c, le_opt (one c) (one' c).
Lemma le_all : forall l, le_opt (all one l) (all one' l).
Proof. intros l. apply le_map. apply le_map_opt. intros x _. apply ONE. Qed.
Lemma le_compound : forall first c, le_opt (compound nest one first c) (compound nest' one' first c).
Proof.
  intros first c. unfold compound, elided.
  destruct (first && match c with x :: _ => is_nesting x | [] => false end).
  - destruct (tl c) as [|x r]; cbn [andb].
    + apply le_app; [apply NEST|apply le_all].
    + assert (G : le_opt (if is_type x
        then app_opt (all one (firstn 1 (x :: r))) (app_opt (one Nesting) (all one (filter (fun c => match c with Univ => false | _ => true end) (skipn 1 (x :: r)))))
        else app_opt (nest true) (all one (filter (fun c => match c with Univ => false | _ => true end) (x :: r))))
       (if is_type x
        then app_opt (all one' (firstn 1 (x :: r))) (app_opt (one' Nesting) (all one' (filter (fun c => match c with Univ => false | _ => true end) (skipn 1 (x :: r)))))
        else app_opt (nest' true) (all one' (filter (fun c => match c with Univ => false | _ => true end) (x :: r))))).
      { destruct (is_type x); repeat (apply le_app); auto using le_all. }
      destruct x; try exact G. destruct r; [|exact G]. apply le_app; auto.
  - cbn [andb]. destruct c as [|x c]; [apply le_all|]. destruct x; try apply le_all. destruct c; [apply ONE|apply le_all].
Qed.
Lemma le_compounds : forall cs rel first ks, le_opt (compounds nest one rel first cs ks) (compounds nest' one' rel first cs ks).
Proof.
  induction cs as [|c cs IH]; intros rel first ks; [apply le_refl|]. cbn [compounds].
  destruct (rel && match c with x :: _ => is_scope x | [] => false end).
  - destruct (tl c) as [|y t]; repeat apply le_app; auto using le_refl, le_compound.
  - destruct c as [|y t]; repeat apply le_app; auto using le_refl, le_compound.
Qed.
End Mono.
Lemma serialize_mono : forall f dest ctx rel s, le_opt (serialize f dest ctx rel s) (serialize (S f) dest ctx rel s).
Proof.
  induction f as [|f IH]; intros dest ctx rel s; [intros a H; discriminate|].
  rewrite (serialize_S f), (serialize_S (S f)). destruct (split s) as [cs ks]. 
  assert (ML : forall c r l, le_opt (map_opt (serialize f dest c r) l) (map_opt (serialize (S f) dest c r) l))
    by (intros; apply le_map_opt; intros; apply IH).
  assert (NE : forall b, le_opt (nest_of f dest ctx b) (nest_of (S f) dest ctx b)).
  { intros b. unfold nest_of. destruct ctx as [|[|p [|q l]] r]; [apply le_refl| | |]; try (apply le_map, ML).
    destruct (b || negb (has_type p) && is_simple p); [apply IH|apply le_map, ML]. }
  apply le_compounds; [exact NE|].
  intros c. destruct c; cbn [one_of]; try apply le_refl; try (apply le_map, ML); try (apply le_map, IH); try apply NE.
  destruct (unwraps l); [apply IH|apply le_map, ML].
Qed.
Lemma serialize_more : forall f f' dest ctx rel s t, f <= f' -> serialize f dest ctx rel s = Some t -> serialize f' dest ctx rel s = Some t.
Proof.
  intros f f' dest ctx rel s t H. induction H as [|f' H IH]; intros X; [exact X|]. apply serialize_mono. auto.
Qed.

(** ** Enough fuel *)
Fixpoint depth (c : part) : nat :=
  match c with
  | Is l | Where l | Any l | Not l | NthOf _ l | Has l => S (list_max (map (fun s => list_max (map depth s)) l))
  | Host s | Slotted s => S (list_max (map depth s))
  | _ => 0
  end.
Definition sdepth (s : selector) : nat := list_max (map depth s).
Fixpoint cdepth (ctx : list (list selector)) : nat :=
  match ctx with [] => 0 | l :: r => S (list_max (map sdepth l) + cdepth r) end.
Lemma list_max_in : forall l x, In x l -> x <= list_max l.
Proof.
  induction l as [|y l IH]; intros x H; [contradiction|]. change (list_max (y :: l)) with (Nat.max y (list_max l)).
  destruct H as [->|H]; [lia|]. specialize (IH _ H). lia.
Qed.
Lemma map_opt_total : forall A B (f : A -> option B) l, (forall x, In x l -> f x <> None) -> map_opt f l <> None.
Proof.
  intros A B f. induction l as [|x l IH]; intros H; [discriminate|]. cbn [map_opt].
  destruct (f x) as [y|] eqn:F; [|exfalso; apply (H x (or_introl eq_refl) F)]. cbn [bind].
  destruct (map_opt f l) as [q|] eqn:M; [discriminate|]. exfalso. apply IH; [|reflexivity]. intros z Z. apply H. now right.
Qed.
Lemma app_opt_total : forall A (x y : option (list A)), x <> None -> y <> None -> app_opt x y <> None.
Proof. intros A [x|] [y|] X Y; try congruence. discriminate. Qed.
Lemma option_map_total : forall A B (f : A -> B) x, x <> None -> option_map f x <> None.
Proof. intros A B f [x|] H; [discriminate|congruence]. Qed.
Lemma all_total : forall one l, (forall x, In x l -> one x <> None) -> all one l <> None.
Proof. intros. apply option_map_total. apply map_opt_total. assumption. Qed.
Lemma elided_total : forall one l, (forall x, In x l -> one x <> None) -> elided one l <> None.
Proof. intros one l H. apply all_total. intros x X. apply filter_In in X. apply H. apply X. Qed.
Lemma compound_total : forall nest one first c, (forall b, nest b <> None) -> one Univ <> None -> one Nesting <> None ->
  (forall x, In x c -> one x <> None) -> compound nest one first c <> None.
Proof.
  intros nest one first c N U NE H. unfold compound.
  assert (HT : forall x, In x (tl c) -> one x <> None) by (intros x X; apply H; destruct c; [contradiction|now right]).
  destruct (first && match c with x :: _ => is_nesting x | [] => false end).
  - assert (G : (if true && match tl c with x :: _ => is_type x | [] => false end
     then app_opt (all one (firstn 1 (tl c))) (app_opt (one Nesting) (elided one (skipn 1 (tl c))))
     else app_opt (nest true) (elided one (tl c))) <> None).
    { destruct (tl c) as [|x r]; cbn [andb].
      - apply app_opt_total; [apply N|]. apply elided_total. intros x X. contradiction.
      - destruct (is_type x).
        + apply app_opt_total; [apply all_total|apply app_opt_total; [exact NE|apply elided_total]].
          * intros y Y. apply HT. destruct Y as [->|[]]. now left.
          * intros y Y. apply HT. right. exact Y.
        + apply app_opt_total; [apply N|apply elided_total; exact HT]. }
    destruct (tl c) as [|x r]; [exact G|]. destruct x; try exact G. destruct r; [|exact G]. apply app_opt_total; auto.
  - cbn [andb]. destruct c as [|x c]; [apply elided_total; exact H|]. destruct x; try (apply elided_total; exact H).
    destruct c; [exact U|apply elided_total; exact H].
Qed.
Lemma compounds_total : forall nest one cs rel first ks, (forall b, nest b <> None) -> one Univ <> None -> one Nesting <> None ->
  (forall c x, In c cs -> In x c -> one x <> None) -> compounds nest one rel first cs ks <> None.
Proof.
  intros nest one cs rel first ks N U NE. revert rel first ks. induction cs as [|c cs IH]; intros rel first ks H; [discriminate|].
  assert (IH' : forall rel first ks, compounds nest one rel first cs ks <> None).
  { intros. apply IH. intros d x D X. apply (H d x); [now right|exact X]. }
  assert (H0 : forall x, In x c -> one x <> None) by (intros x X; apply (H c x); [now left|exact X]).
  cbn [compounds]. destruct (rel && match c with x :: _ => is_scope x | [] => false end).
  - assert (H1 : forall x, In x (tl c) -> one x <> None) by (intros x X; apply H0; destruct c; [contradiction|now right]).
    destruct (tl c) as [|y t]; repeat apply app_opt_total; auto; try discriminate. apply compound_total; auto.
  - destruct c as [|y t]; repeat apply app_opt_total; auto; try discriminate. apply compound_total; auto.
Qed.
Lemma join_in : forall cs ks c x, length cs = S (length ks) -> In c cs -> In x c -> In x (join cs ks).
Proof.
  induction cs as [|d cs IH]; intros ks c x L C X; [contradiction|]. cbn [join]. destruct ks as [|k ks].
  - destruct cs; [|discriminate]. destruct C as [->|[]]. exact X.
  - apply in_or_app. injection L as L. destruct C as [->|C]; [left; exact X|right; right; eapply IH; eauto].
Qed.
Definition free_context (ctx : list (list selector)) : Prop := Forall (Forall (fun s => forallb hosts_free s = true)) ctx.
Lemma serialize_total : forall f dest ctx rel s, forallb hosts_free s = true -> free_context ctx ->
  sdepth s + cdepth ctx < f -> serialize f dest ctx rel s <> None.
Proof.
  induction f as [|f IH]; intros dest ctx rel s H C L; [lia|]. rewrite serialize_S.
  pose proof (split_join s) as SJ. destruct (split s) as [cs ks]. destruct SJ as [J [LN _]].
  assert (NS : forall b, nest_of f dest ctx b <> None).
  { intros b. unfold nest_of. destruct ctx as [|l r]; [discriminate|]. inversion C as [|x y CL CR]; subst.
    assert (P : forall p, In p l -> serialize f dest r false p <> None).
    { intros p P. apply IH; [exact (proj1 (Forall_forall _ _) CL p P)|exact CR|].
      cbn [cdepth] in L. pose proof (list_max_in (map sdepth l) (sdepth p) (in_map _ _ _ P)). lia. }
    assert (Q : option_map (fun x => [Is x]) (map_opt (serialize f dest r false) l) <> None)
      by (apply option_map_total, map_opt_total; exact P).
    destruct l as [|p [|q l]]; auto. destruct (b || negb (has_type p) && is_simple p); [apply P; now left|exact Q]. }
  apply compounds_total; [exact NS|discriminate|apply NS|].
  intros c x CI XI. pose proof (join_in _ _ _ _ LN CI XI) as XS. rewrite J in XS.
  pose proof (proj1 (forallb_forall _ _) H x XS) as HX.
  assert (DX : depth x <= sdepth s) by (apply list_max_in, in_map; exact XS).
  assert (ARG : forall rel l, forallb (forallb hosts_free) l = true -> S (list_max (map (fun s => list_max (map depth s)) l)) <= sdepth s ->
     map_opt (serialize f dest ctx rel) l <> None).
  { intros rel0 l HL DL. apply map_opt_total. intros q Q. apply IH; [exact (proj1 (forallb_forall _ _) HL q Q)|exact C|].
    pose proof (list_max_in _ _ (in_map (fun s => list_max (map depth s)) l q Q)) as M. cbn beta in M. unfold sdepth at 1. lia. }
  assert (HOST : forall q, forallb nest_free q && forallb hosts_free q = true -> S (list_max (map depth q)) <= sdepth s ->
     serialize f dest dest false q <> None).
  { intros q Q D. apply andb_true_iff in Q. destruct Q as [Q1 Q2]. rewrite (serialize_nest_free f dest dest ctx) by exact Q1.
    apply IH; [exact Q2|exact C|]. unfold sdepth at 1. lia. }
  destruct x; cbn [one_of hosts_free depth] in *; try discriminate; try apply NS; try (apply option_map_total, ARG; assumption);
    try (apply option_map_total, HOST; assumption).
  destruct (unwraps l) eqn:U; [|apply option_map_total, ARG; assumption].
  pose proof (ARG false l HX DX) as A. destruct l as [|s0 l]; [discriminate|]. cbn [map_opt hd] in *.
  intros X. rewrite X in A. apply A. reflexivity.
Qed.

(** ** Rules *)
Lemma prints_style : forall fuel ctx l b rules, print fuel ctx (Style l b rules) =
  app_opt (if negb (is_nil b) || is_nil rules then bind (serialize_list fuel ctx l) (fun x => Some [PStyle x b]) else Some [])
          (prints fuel (l :: ctx) rules).
Proof.
  intros. cbn [print]. f_equal.
  set (g := fix prints (rs : list nrule) : option (list prule) := match rs with [] => Some [] | r :: t => app_opt (print fuel (l :: ctx) r) (prints t) end).
  induction rules as [|r t IH]; [reflexivity|]. cbn [prints]. rewrite <- IH. reflexivity.
Qed.
Lemma prints_cond : forall fuel ctx q rules, print fuel ctx (Cond q rules) = option_map (fun x => [PCond q x]) (prints fuel ctx rules).
Proof.
  intros. cbn [print]. f_equal.
  set (g := fix prints (rs : list nrule) : option (list prule) := match rs with [] => Some [] | r :: t => app_opt (print fuel ctx r) (prints t) end).
  induction rules as [|r t IH]; [reflexivity|]. cbn [prints]. rewrite <- IH. reflexivity.
Qed.
Lemma fine_rules_all : forall ctx rules,
  (fix fine_rules (rs : list nrule) : Prop := match rs with [] => True | r :: t => fine_rule ctx r /\ fine_rules t end) rules
  <-> Forall (fine_rule ctx) rules.
Proof.
  intros ctx rules. induction rules as [|r t IH]; [split; constructor|]. rewrite IH. split; [intros [A B]; constructor; auto|intros H; inversion H; auto].
Qed.
Lemma nrule_ind' : forall P : nrule -> Prop,
  (forall l b rules, Forall P rules -> P (Style l b rules)) -> (forall b, P (Decls b)) -> (forall q rules, Forall P rules -> P (Cond q rules)) ->
  forall r, P r.
Proof.
  intros P HS HD HC. fix F 1. intros [l b rules|b|q rules]; [apply HS| |apply HC].
  - induction rules as [|r t IH]; constructor; auto.
  - apply HD.
  - induction rules as [|r t IH]; constructor; auto.
Qed.

Section Sheets.
Context {E : Type} (w : world E).
Variable weight : nat -> triple.
Hypothesis EXT : extensional w.

(** The enclosing rules of a rule that is printed. *)
Definition around (ctx : list (list selector)) : Prop :=
  fine_context ctx /\ (ctx = [] \/ rooted ctx).
Lemma around_cons : forall l ctx, around ctx -> Forall (fun s => fine_in ctx s /\ closed_in ctx s) l -> Forall (fun s => plain s = true) l -> around (l :: ctx).
Proof.
  intros l ctx [F RT] H P. split.
  - split; [|exact F]. rewrite Forall_forall in *. intros s S. split; [apply H|apply P]; exact S.
  - right. destruct ctx as [|a r].
    + cbn [rooted]. rewrite Forall_forall in *. intros s S. apply H. exact S.
    + destruct RT as [RT|RT]; [discriminate|exact RT].
Qed.
Lemma around_closed : forall l ctx, around (l :: ctx) -> Forall (fun s => fine_in ctx s /\ closed_in ctx s) l /\ fine_context ctx.
Proof.
  intros l ctx [[F C] RT]. split; [|exact C]. destruct RT as [RT|RT]; [discriminate|]. apply rooted_ups in RT.
  rewrite Forall_forall in *. intros s S. split; [apply F|apply RT]; exact S.
Qed.
Lemma printed_selectors : forall fuel ctx l x, fine_context ctx -> Forall (fun s => fine_in ctx s /\ closed_in ctx s) l ->
  serialize_list fuel ctx l = Some x ->
  forall qs b, Forall2 same_block (block qs b (by_selectors w weight ctx l)) (printed_blocks w weight qs (PStyle x b)).
Proof.
  intros fuel ctx l x C F H qs b. cbn [printed_blocks]. unfold block. destruct (is_nil b); [constructor|]. constructor; [|constructor].
  split; [reflexivity|]. split; [reflexivity|]. cbn [applies]. intros e sp.
  apply map_opt_some in H.
  assert (G : Forall2 (fun s t => good w weight ctx s t /\ closed_in ctx s) l x).
  { induction H as [|s t l x A B IH]; [constructor|]. inversion F as [|y z [F1 F2] F3]; subst. constructor; [|auto].
    split; [|exact F2]. eapply all_good; eauto. }
  assert (RD : forallb readable x = true).
  { clear -G. induction G as [|s t l x [A _] B IH]; [reflexivity|]. cbn [forallb]. rewrite IH. unfold readable, complete.
    rewrite (g_scan _ _ _ _ _ A), (g_args _ _ _ _ _ A). reflexivity. }
  rewrite RD.
  split.
  - intros [s [S [M SP]]]. split; [reflexivity|]. clear -G S M SP. induction G as [|s' t l x [A CL] B IH]; [contradiction|].
    destruct S as [->|S]; [|destruct (IH S) as [u [U1 U2]]; exists u; split; [now right|exact U2]].
    exists t. split; [now left|]. split; [apply (good_ends _ _ _ _ _ e A); exact M|].
    rewrite <- SP. exact (g_spec _ _ _ _ _ A CL).
  - intros [_ [t [S [M SP]]]]. clear -G S M SP. induction G as [|s' t' l x [A CL] B IH]; [contradiction|].
    destruct S as [->|S]; [|destruct (IH S) as [u [U1 U2]]; exists u; split; [now right|exact U2]].
    exists s'. split; [now left|]. split; [apply (good_ends _ _ _ _ _ e A); exact M|].
    rewrite <- SP. symmetry. exact (g_spec _ _ _ _ _ A CL).
Qed.
Lemma prints_good : forall fuel rules, 
  Forall (fun r => forall ctx qs ps, around ctx -> fine_rule ctx r -> print fuel ctx r = Some ps ->
     Forall2 same_block (nested_blocks w weight ctx qs r) (flat_map (printed_blocks w weight qs) ps)) rules ->
  forall ctx qs ps, around ctx -> Forall (fine_rule ctx) rules -> prints fuel ctx rules = Some ps ->
     Forall2 same_block (flat_map (nested_blocks w weight ctx qs) rules) (flat_map (printed_blocks w weight qs) ps).
Proof.
  intros fuel rules H. induction H as [|r t A B IH]; intros ctx qs ps C F P; cbn [prints] in P.
  - injection P as <-. constructor.
  - apply app_opt_some in P. destruct P as [a [b [PA [PB ->]]]]. inversion F; subst. rewrite flat_map_app. cbn [flat_map].
    apply Forall2_app; auto.
Qed.
Lemma print_good : forall fuel r ctx qs ps, around ctx -> fine_rule ctx r -> print fuel ctx r = Some ps ->
  Forall2 same_block (nested_blocks w weight ctx qs r) (flat_map (printed_blocks w weight qs) ps).
Proof.
  intros fuel. apply (nrule_ind' (fun r => forall ctx qs ps, around ctx -> fine_rule ctx r -> print fuel ctx r = Some ps ->
    Forall2 same_block (nested_blocks w weight ctx qs r) (flat_map (printed_blocks w weight qs) ps))).
  - intros l b rules IH ctx qs ps C F P. rewrite prints_style in P. apply app_opt_some in P. destruct P as [a [q [PA [PQ ->]]]].
    cbn [fine_rule] in F. destruct F as [F1 [F2 F3]]. apply fine_rules_all in F3.
    rewrite flat_map_app. cbn [nested_blocks]. apply Forall2_app.
    + destruct (negb (is_nil b) || is_nil rules) eqn:NB.
      * destruct (serialize_list fuel ctx l) as [x|] eqn:SL; [|discriminate]. cbn [bind] in PA. injection PA as <-. cbn [flat_map].
        rewrite app_nil_r. eapply printed_selectors; eauto. apply C.
      * injection PA as <-. apply orb_false_iff in NB. destruct NB as [NB _]. apply negb_false_iff in NB.
        unfold block. rewrite NB. constructor.
    + destruct F2 as [->|F2].
      * cbn in PQ. injection PQ as <-. constructor.
      * eapply prints_good; eauto. apply around_cons; assumption.
  - intros b ctx qs ps C F P. cbn [print nested_blocks] in *. destruct ctx as [|l up]; [injection P as <-; constructor|].
    unfold block at 1. destruct (is_nil b) eqn:NB; [injection P as <-; constructor|].
    destruct (serialize_list fuel up l) as [x|] eqn:SL; [|discriminate]. cbn [bind] in P. injection P as <-. cbn [flat_map]. rewrite app_nil_r.
    destruct (around_closed _ _ C) as [F1 F2].
    pose proof (printed_selectors fuel up l x F2 F1 SL qs b) as G. unfold block at 1 in G. rewrite NB in G. exact G.
  - intros q rules IH ctx qs ps C F P. rewrite prints_cond in P. apply option_map_some in P. destruct P as [a [PA ->]].
    cbn [fine_rule] in F. apply fine_rules_all in F. cbn [flat_map nested_blocks]. rewrite app_nil_r. cbn [printed_blocks].
    eapply prints_good; eauto.
Qed.
Theorem sheet_good : forall fuel rules ps, Forall (fine_rule []) rules -> prints fuel [] rules = Some ps ->
  Forall2 same_block (flat_map (nested_blocks w weight [] []) rules) (flat_map (printed_blocks w weight []) ps).
Proof.
  intros fuel rules ps F P. eapply prints_good; eauto.
  - apply Forall_forall. intros r _. apply print_good.
  - split; [exact I|now left].
Qed.

(** ** Unused symbols *)
Variable gone : list nat.
Hypothesis ABS : absent w gone.
Lemma run_none : forall f s P, (forall e, ~ P e) -> forall e, ~ run w f P s e.
Proof.
  intros f. induction s as [|c s IH]; intros P H e; [apply H|].
  change (run w f P (c :: s) e) with (run w f (read_part w f P c) s e). apply IH. intros x.
  assert (M : forall k, ~ moved w k P x) by (intros k [y [_ Y]]; exact (H y Y)).
  pose proof (H x) as Hx.
  destruct c; cbn [read_part]; try apply M; try (intros [A _]; exact (Hx A)); intros [A _]; exact (M _ A).
Qed.
Lemma run_none_at : forall f s, (exists c, In c s /\ (match c with Comb _ => false | _ => true end) = true /\ forall e, ~ f c e) ->
  forall P e, ~ run w f P s e.
Proof.
  intros f. induction s as [|c s IH]; intros [d [D [N H]]] P e; [contradiction|].
  change (run w f P (c :: s) e) with (run w f (read_part w f P c) s e). destruct D as [->|D].
  - apply run_none. intros x. pose proof (H x) as Hx. destruct d; try discriminate; cbn [read_part]; tauto.
  - apply IH. eauto.
Qed.
(** Both [dead] and the specification's predicates. *)
Section Kill.
Variable amp : E -> Prop.
Variable kill : part -> bool.
Hypothesis ATOM : forall n, kill (Atom n) = existsb (Nat.eqb n) gone.
Hypothesis AMP : kill Nesting = true -> forall e, ~ amp e.
Hypothesis IS : forall c l, (c = Is l \/ c = Where l \/ c = Any l) -> kill c = forallb (existsb kill) l.
Hypothesis ELSE : forall c, (match c with Atom _ | Nesting | Is _ | Where _ | Any _ => false | _ => true end) = true -> kill c = false.
Lemma kill_none : forall c, kill c = true -> forall e, ~ sem w false amp c e.
Proof.
  fix F 1. intros c K e.
  assert (L : forall l, forallb (existsb kill) l = true -> ~ some w (sem w false amp) l e).
  { induction l as [|s l IHl]; intros Q; [exact (fun x => x)|]. apply forallb_cons in Q. destruct Q as [Q1 Q2]. cbn [some].
    intros [A|A]; [|exact (IHl Q2 A)]. revert A. apply run_none_at.
    clear -Q1 F ELSE. induction s as [|d s IHs]; [discriminate|]. cbn [existsb] in Q1. destruct (kill d) eqn:KD.
    - exists d. split; [now left|]. split; [destruct d; auto; rewrite ELSE in KD by reflexivity; discriminate|]. exact (F d KD).
    - cbn [orb] in Q1. destruct (IHs Q1) as [x [X Y]]. exists x. split; [now right|exact Y]. }
  destruct c; try (rewrite ELSE in K by reflexivity; discriminate); cbn [sem].
  - rewrite ATOM in K. apply existsb_exists in K. destruct K as [m [M1 M2]]. apply Nat.eqb_eq in M2. subst m. apply ABS. exact M1.
  - apply AMP. exact K.
  - apply L. rewrite <- (IS (Is l)); auto.
  - apply L. rewrite <- (IS (Where l)); auto.
  - apply L. rewrite <- (IS (Any l)); auto.
Qed.
Lemma kill_selectors : forall l, forallb (existsb kill) l = true -> forall s e, In s l -> ~ ends w (sem w false amp) s e.
Proof.
  intros l H s e S. apply (proj1 (forallb_forall _ _) H) in S. apply run_none_at. apply existsb_exists in S.
  destruct S as [c [C K]]. exists c. split; [exact C|]. split; [destruct c; auto; rewrite ELSE in K by reflexivity; discriminate|].
  apply kill_none. exact K.
Qed.
Lemma kill_some : forall l, forallb (existsb kill) l = true -> forall e, ~ some w (sem w false amp) l e.
Proof.
  intros l H e. pose proof (kill_selectors l H) as K. clear H. induction l as [|s l IH]; [exact (fun x => x)|]. cbn [some].
  intros [A|A]; [exact (K s e (or_introl eq_refl) A)|]. apply IH; [|exact A]. intros t x T0. apply K. now right.
Qed.
End Kill.
Lemma dead_selectors : forall amp parent l, (parent = true -> forall e, ~ amp e) -> is_unused gone parent l = true ->
  forall s e, In s l -> ~ ends w (sem w false amp) s e.
Proof.
  intros amp parent l H U. unfold is_unused in U. apply andb_true_iff in U. destruct U as [_ U].
  apply (kill_selectors amp (dead gone parent)); auto.
  - intros c q [-> | [-> | ->]]; reflexivity.
  - intros c C. destruct c; auto; discriminate.
Qed.
Lemma lacks_none : forall amp l, forallb (existsb (lacks gone)) l = true -> forall e, ~ some w (sem w false amp) l e.
Proof.
  intros amp l U. apply (kill_some amp (lacks gone)); auto.
  - discriminate.
  - intros c q [-> | [-> | ->]]; reflexivity.
  - intros c C. destruct c; auto; discriminate.
Qed.
Lemma needs_none : forall amp l, (forall e, ~ amp e) -> forallb (existsb (needs gone)) l = true -> forall s e, In s l -> ~ ends w (sem w false amp) s e.
Proof.
  intros amp l H U. apply (kill_selectors amp (needs gone)); auto.
  - intros c q [-> | [-> | ->]]; reflexivity.
  - intros c C. destruct c; auto; discriminate.
Qed.
Lemma needs_some : forall amp l, (forall e, ~ amp e) -> forallb (existsb (needs gone)) l = true -> forall e, ~ some w (sem w false amp) l e.
Proof.
  intros amp l H U. apply (kill_some amp (needs gone)); auto.
  - intros c q [-> | [-> | ->]]; reflexivity.
  - intros c C. destruct c; auto; discriminate.
Qed.

Lemma trimmed_app : forall (a b c d : list (applied E)), trimmed a b -> trimmed c d -> trimmed (a ++ c) (b ++ d).
Proof. intros a b c d H G. induction H; cbn [app]; [exact G|constructor; auto|apply trimmed_drop; auto]. Qed.
Lemma trimmed_refl : forall l : list (applied E), trimmed l l.
Proof. induction l as [|a l IH]; constructor; auto. repeat split; auto. Qed.
Lemma trimmed_none : forall l : list (applied E), Forall (fun a => forall e x, ~ applies a e x) l -> trimmed l [].
Proof. intros l H. induction H; [constructor|apply trimmed_drop; auto]. Qed.
Lemma block_none : forall qs b (A : E -> triple -> Prop), (forall e x, ~ A e x) -> Forall (fun a => forall e x, ~ applies a e x) (block qs b A).
Proof. intros qs b A H. unfold block. destruct (is_nil b); repeat constructor. exact H. Qed.
Lemma by_none : forall ctx l, (forall s e, In s l -> ~ ends w (sem w false (enclosing w ctx)) s e) -> forall e x, ~ by_selectors w weight ctx l e x.
Proof. intros ctx l H e x [s [S [M _]]]. exact (H s e S M). Qed.
Lemma some_in : forall f l s (e : E), In s l -> ends w f s e -> some w f l e.
Proof. intros f l s e H M. induction l as [|t l IH]; [contradiction|]. destruct H as [->|H]; [left; exact M|right; auto]. Qed.
Lemma Forall_flat_map : forall A B (P : B -> Prop) (f : A -> list B) l, (forall x, In x l -> Forall P (f x)) -> Forall P (flat_map f l).
Proof.
  intros A B P f l H. induction l as [|x l IH]; [constructor|]. cbn [flat_map]. apply Forall_app. split; [apply H; now left|].
  apply IH. intros y Y. apply H. now right.
Qed.
(** Nothing in rules that are bound to a rule that matches nothing. *)
Lemma bound_none : forall r ctx qs, (forall e, ~ enclosing w ctx e) -> bound gone r = true ->
  Forall (fun a => forall e x, ~ applies a e x) (nested_blocks w weight ctx qs r).
Proof.
  apply (nrule_ind' (fun r => forall ctx qs, (forall e, ~ enclosing w ctx e) -> bound gone r = true ->
    Forall (fun a => forall e x, ~ applies a e x) (nested_blocks w weight ctx qs r))).
  - intros l b rules IH ctx qs H B. cbn [bound nested_blocks] in *. apply andb_true_iff in B. destruct B as [B1 B2]. apply Forall_app. split.
    + apply block_none. apply by_none. apply needs_none; assumption.
    + apply Forall_flat_map. intros r R. rewrite Forall_forall in IH. apply (IH r R); [|exact (proj1 (forallb_forall _ _) B2 r R)].
      cbn [enclosing]. apply needs_some; assumption.
  - intros b ctx qs H _. cbn [nested_blocks]. destruct ctx as [|l up]; [constructor|]. apply block_none. apply by_none.
    intros s e S M. apply (H e). cbn [enclosing]. eapply some_in; eauto.
  - intros q rules IH ctx qs H B. cbn [bound nested_blocks] in *. apply Forall_flat_map. intros r R. rewrite Forall_forall in IH.
    apply (IH r R); [exact H|exact (proj1 (forallb_forall _ _) B r R)].
Qed.
Lemma bound_bound : forall r, bound gone r = true -> bound_inside gone r = true.
Proof.
  apply (nrule_ind' (fun r => bound gone r = true -> bound_inside gone r = true)); try reflexivity.
  - intros l b rules IH B. cbn [bound bound_inside] in *. apply andb_true_iff in B. destruct B as [_ B].
    destruct (forallb (existsb (lacks gone)) l); [exact B|]. rewrite forallb_forall in *. intros r R. rewrite Forall_forall in IH. auto.
  - intros q rules IH B. cbn [bound bound_inside] in *. rewrite forallb_forall in *. intros r R. rewrite Forall_forall in IH. auto.
Qed.
Lemma unused_lacks : forall l, forallb (fun s => existsb (dead gone false) s) l = forallb (existsb (lacks gone)) l.
Proof. reflexivity. Qed.
Lemma flat_map_trimmed : forall (f g : nrule -> list (applied E)) (h : nrule -> list nrule) l,
  (forall r, In r l -> trimmed (f r) (flat_map g (h r))) -> trimmed (flat_map f l) (flat_map g (flat_map h l)).
Proof.
  intros f g h l H. induction l as [|r l IH]; [constructor|]. cbn [flat_map]. rewrite flat_map_app. apply trimmed_app; [apply H; now left|].
  apply IH. intros q Q. apply H. now right.
Qed.
Lemma prune_good : forall r ctx qs (parent : bool),
  (if parent then (forall e, ~ enclosing w ctx e) /\ bound gone r = true else bound_inside gone r = true) ->
  trimmed (nested_blocks w weight ctx qs r) (flat_map (nested_blocks w weight ctx qs) (prune gone parent r)).
Proof.
  apply (nrule_ind' (fun r => forall ctx qs (parent : bool),
    (if parent then (forall e, ~ enclosing w ctx e) /\ bound gone r = true else bound_inside gone r = true) ->
    trimmed (nested_blocks w weight ctx qs r) (flat_map (nested_blocks w weight ctx qs) (prune gone parent r)))).
  - intros l b rules IH ctx qs parent H. destruct parent.
    { cbn [prune flat_map]. apply trimmed_none. apply bound_none; apply H. }
    cbn [prune]. cbn [bound_inside] in H. destruct (is_unused gone false l) eqn:U; cbn [andb].
    + pose proof U as U'. unfold is_unused in U'. apply andb_true_iff in U'. destruct U' as [_ U']. rewrite unused_lacks in U'. rewrite U' in H.
      assert (EMP : forall e, ~ enclosing w (l :: ctx) e) by (cbn [enclosing]; apply lacks_none; exact U').
      assert (B : Forall (fun a => forall e x, ~ applies a e x) (block qs b (by_selectors w weight ctx l))).
      { apply block_none, by_none. apply (dead_selectors _ false); [discriminate|exact U]. }
      assert (RS : trimmed (flat_map (nested_blocks w weight (l :: ctx) qs) rules) (flat_map (nested_blocks w weight (l :: ctx) qs) (flat_map (prune gone true) rules))).
      { apply flat_map_trimmed. intros r R. rewrite Forall_forall in IH. apply (IH r R). split; [exact EMP|exact (proj1 (forallb_forall _ _) H r R)]. }
      cbn [nested_blocks]. destruct rules as [|r0 rules']; cbn [is_nil].
      * cbn [flat_map]. rewrite app_nil_r. apply trimmed_none. exact B.
      * destruct (flat_map (prune gone true) (r0 :: rules')) as [|z zs] eqn:FM; cbn [is_nil].
        -- cbn [flat_map]. rewrite <- (app_nil_r []). apply trimmed_app; [apply trimmed_none; exact B|exact RS].
        -- cbn [flat_map nested_blocks]. rewrite app_nil_r. change (block qs [] (by_selectors w weight ctx l)) with (@nil (applied E)).
           apply trimmed_app; [apply trimmed_none; exact B|exact RS].
    + cbn [flat_map nested_blocks]. rewrite app_nil_r. apply trimmed_app; [apply trimmed_refl|].
      apply flat_map_trimmed. intros r R. rewrite Forall_forall in IH. apply (IH r R).
      destruct (forallb (existsb (lacks gone)) l); [apply bound_bound|]; exact (proj1 (forallb_forall _ _) H r R).
  - intros b ctx qs parent H. cbn [prune]. destruct parent.
    + cbn [flat_map]. apply trimmed_none. apply bound_none; apply H.
    + cbn [flat_map]. rewrite app_nil_r. apply trimmed_refl.
  - intros q rules IH ctx qs parent H. cbn [prune nested_blocks].
    assert (G : trimmed (flat_map (nested_blocks w weight ctx (q :: qs)) rules) (flat_map (nested_blocks w weight ctx (q :: qs)) (flat_map (prune gone parent) rules))).
    { apply flat_map_trimmed. intros r R. rewrite Forall_forall in IH. apply (IH r R). destruct parent; cbn [bound bound_inside] in H.
      - destruct H as [H1 H2]. split; [exact H1|exact (proj1 (forallb_forall _ _) H2 r R)].
      - exact (proj1 (forallb_forall _ _) H r R). }
    destruct (flat_map (prune gone parent) rules) as [|z zs]; [exact G|]. cbn [flat_map nested_blocks] in *. rewrite app_nil_r. exact G.
Qed.
Theorem unused_good : forall rules, forallb (bound_inside gone) rules = true ->
  trimmed (flat_map (nested_blocks w weight [] []) rules) (flat_map (nested_blocks w weight [] []) (flat_map (prune gone false) rules)).
Proof.
  intros rules H. apply flat_map_trimmed. intros r R. apply prune_good. exact (proj1 (forallb_forall _ _) H r R).
Qed.
End Sheets.

Lemma prune_true : forall gone r, prune gone true r = [].
Proof.
  intros gone. apply (nrule_ind' (fun r => prune gone true r = [])); try reflexivity.
  intros q rules IH. cbn [prune]. replace (flat_map (prune gone true) rules) with (@nil nrule); [reflexivity|].
  induction IH as [|r t A B IHt]; [reflexivity|]. cbn [flat_map]. rewrite A, <- IHt. reflexivity.
Qed.
Lemma prune_live : forall gone, gone <> [] -> forall r, forallb (live gone) (prune gone false r) = true.
Proof.
  intros gone N.
  assert (F : forall (h : nrule -> list nrule) l, Forall (fun r => forallb (live gone) (h r) = true) l -> forallb (live gone) (flat_map h l) = true).
  { intros h l H. induction H as [|r t A B IH]; [reflexivity|]. cbn [flat_map]. rewrite forallb_app, A, IH. reflexivity. }
  apply (nrule_ind' (fun r => forallb (live gone) (prune gone false r) = true)); try reflexivity.
  - intros l b rules IH. cbn [prune]. destruct (is_unused gone false l) eqn:U; cbn [andb].
    + destruct (is_nil rules); [reflexivity|]. replace (flat_map (prune gone true) rules) with (@nil nrule); [reflexivity|].
      clear. induction rules as [|r t IH]; [reflexivity|]. cbn [flat_map]. rewrite prune_true, <- IH. reflexivity.
    + cbn [forallb live]. rewrite (F _ _ IH), andb_true_r, andb_true_r. unfold is_unused in U. rewrite unused_lacks in U.
      destruct gone; [congruence|]. cbn [is_nil negb andb] in U. rewrite U. reflexivity.
  - intros q rules IH. cbn [prune]. pose proof (F _ _ IH) as G. destruct (flat_map (prune gone false) rules); [reflexivity|].
    cbn [forallb live] in *. rewrite G. reflexivity.
Qed.

(** ** Statements *)
Lemma selector_means : forall fuel dest ctx s t,
  fine_context ctx -> fine_in ctx s -> serialize fuel dest ctx false s = Some t ->
  readable t = true
  /\ (forall E (w : world E), extensional w -> forall e, printed w t e <-> nested w ctx s e)
  /\ (closed_in ctx s -> forall weight, printed_spec weight t = nested_spec weight ctx s).
Proof.
  intros fuel dest ctx s t C F H.
  assert (X : extensional (chain [])) by (intros n A B e _ Q; exact Q).
  pose proof (all_good (chain []) (fun _ => (0, 0, 0)%N) X fuel dest ctx s t C F H) as G.
  split; [|split].
  - unfold readable, complete. rewrite (g_scan _ _ _ _ _ G), (g_args _ _ _ _ _ G). reflexivity.
  - intros E w EX e. exact (good_ends w (fun _ => (0, 0, 0)%N) ctx s t e (all_good w _ EX fuel dest ctx s t C F H)).
  - intros CL weight. exact (g_spec _ _ _ _ _ (all_good (chain []) weight X fuel dest ctx s t C F H) CL).
Qed.
Lemma serialize_ends : forall dest ctx s,
  forallb hosts_free s = true -> Forall (Forall (fun s => forallb hosts_free s = true)) ctx ->
  exists fuel t, forall fuel', fuel <= fuel' -> serialize fuel' dest ctx false s = Some t.
Proof.
  intros dest ctx s H C. set (f := S (sdepth s + cdepth ctx)).
  pose proof (serialize_total f dest ctx false s H C (Nat.lt_succ_diag_r _)) as N.
  destruct (serialize f dest ctx false s) as [t|] eqn:X; [|congruence]. exists f, t. intros f' L. eapply serialize_more; eauto.
Qed.
Lemma unused_removed : forall gone rules, gone <> [] -> forallb (live gone) (flat_map (prune gone false) rules) = true.
Proof.
  intros gone rules N. induction rules as [|r t IH]; [reflexivity|]. cbn [flat_map]. rewrite forallb_app, (prune_live gone N), IH. reflexivity.
Qed.

Ltac printed_as f := let fuel := fresh in let dest := fresh in let H := fresh in
  intros fuel dest H; refine (serialize_more f fuel dest _ false _ _ H _); reflexivity.
Ltac ok := cbn; repeat split; cbn; auto with arith.
Lemma leading_refuted : exists ctx s t w e, (forall fuel dest, 3 <= fuel -> serialize fuel dest ctx false s = Some t)
  /\ nested w ctx s e /\ ~ printed (E := nat) w t e.
Proof.
  exists [[[Nesting; Atom 2]]; [[Atom 0; Comb Descendant; Atom 1]]], [Atom 3; Comb Descendant; Nesting],
    [Atom 3; Comb Descendant; Atom 0; Comb Descendant; Atom 1; Atom 2], (chain [[0]; [3]; [1; 2]]), 2.
  split; [printed_as 3|]. split.
  - cbn. split.
    + exists 1. ok.
    + left. ok. left. ok. exists 0. ok.
  - unfold printed, ends, run. cbn. intros [[[x [X [[y [Y [_ YA]]] XA]]] _] _]. cbn in *.
    destruct x as [|[|x]]; [lia|cbn in XA; intuition discriminate|lia].
Qed.
Lemma has_refuted : exists ctx s t w e, (forall fuel dest, 4 <= fuel -> serialize fuel dest ctx false s = Some t)
  /\ nested w ctx s e /\ ~ printed (E := nat) w t e.
Proof.
  exists [[[Atom 0; Comb Descendant; Atom 1]]], [Atom 2; Has [[Scope; Comb Child; Nesting]]],
    [Atom 2; Has [[Comb Child; Atom 0; Comb Descendant; Atom 1]]], (chain [[0]; [2]; [1]]), 1.
  split; [printed_as 4|]. split.
  - cbn. split; [ok|]. left. exists 2. split.
    + exists 1. ok.
    + left. split; [|ok]. exists 0. ok.
  - unfold printed, ends, run. cbn. intros [_ [[x [[y [Y [[z [Z <-]] YA]]] XA]]|[]]]. cbn in *. subst y. cbn in YA. intuition discriminate.
Qed.
Lemma is_refuted : exists ctx s t w e, (forall fuel dest, 4 <= fuel -> serialize fuel dest ctx false s = Some t)
  /\ printed w t e /\ ~ nested (E := nat) w ctx s e.
Proof.
  exists [[[Atom 0; Comb Descendant; Atom 1]]], [Atom 2; Is [[Nesting]]],
    [Atom 2; Atom 0; Comb Descendant; Atom 1], (chain [[0; 2]; [1]]), 1.
  split; [printed_as 4|]. split.
  - cbn. split; [|ok]. exists 0. ok.
  - cbn. intros [[_ A] _]. cbn in A. intuition discriminate.
Qed.
Lemma type_refuted : exists ctx s t, (forall fuel dest, 4 <= fuel -> serialize fuel dest ctx false s = Some t)
  /\ readable t = false.
Proof.
  exists [[[Nesting; Atom 0]]; [[Local 0]]], [Atom 1; Nesting], [Atom 1; Local 0; Atom 0]. split; [printed_as 4|reflexivity].
Qed.
Lemma type_later_refuted : exists ctx s t, (forall fuel dest, 4 <= fuel -> serialize fuel dest ctx false s = Some t)
  /\ readable t = false /\ Forall (Forall (fun s => is_simple s = true)) ctx.
Proof.
  exists [[[Atom 0]]], [Atom 1; Comb Child; Nesting; Local 0], [Atom 1; Comb Child; Atom 0; Local 0]. split; [printed_as 4|].
  split; [reflexivity|repeat constructor].
Qed.
Lemma serialize_host : forall f d ctx x, serialize (S f) d ctx false [Host x] = option_map (fun x => [Host x]) (serialize f d d false x).
Proof.
  intros f d ctx x. rewrite serialize_S. cbn [split compounds andb]. change (is_scope (Host x)) with false. cbn [andb tl hd].
  unfold compound, elided. cbn [andb is_nesting filter]. rewrite all_cons. cbn [one_of].
  destruct (serialize f d d false x); reflexivity.
Qed.
Lemma serialize_amp : forall f d p r, serialize f d r false p = None -> serialize (S f) d ([p] :: r) false [Nesting] = None.
Proof. intros f d p r H. cbn. rewrite H. reflexivity. Qed.
Lemma host_refuted : exists ctx s, forall fuel, serialize fuel ctx ctx false s = None.
Proof.
  exists [[[Host [Nesting]]]; [[Atom 0]]], [Nesting; Comb Descendant; Atom 1].
  assert (H : forall n fuel, fuel <= n ->
     serialize fuel [[[Host [Nesting]]]; [[Atom 0]]] [[[Host [Nesting]]]; [[Atom 0]]] false [Nesting] = None).
  { induction n as [|n IH]; intros [|fuel] L; try reflexivity; [lia|]. apply serialize_amp. destruct fuel as [|fuel]; [reflexivity|].
    rewrite serialize_host, IH by lia. reflexivity. }
  assert (G : forall fuel, serialize fuel [[[Host [Nesting]]]; [[Atom 0]]] [[[Atom 0]]] false [Host [Nesting]] = None).
  { intros [|fuel]; [reflexivity|]. rewrite serialize_host, (H fuel fuel) by lia. reflexivity. }
  intros [|fuel]; [reflexivity|]. cbn. rewrite G. reflexivity.
Qed.
Lemma root_refuted : exists s t, (forall fuel dest, 4 <= fuel -> serialize fuel dest [] false s = Some t)
  /\ forall weight, printed_spec weight t <> nested_spec weight [] s.
Proof. exists [Nesting], [Scope]. split; [printed_as 4|]. intros weight. cbn. discriminate. Qed.
Lemma unused_not_refuted : exists gone rules (w : world nat) weight, absent w gone
  /\ flat_map (prune gone false) rules = []
  /\ exists b e x, In b (flat_map (nested_blocks w weight [] []) rules) /\ applies b e x.
Proof.
  exists [0], [Style [[Atom 0]] [] [Style [[Not [[Nesting]]]] [1] []]], (chain [[1]]), (fun _ => (0, 1, 0)%N).
  split; [|split; [reflexivity|]].
  - intros n e [<-|[]]. cbn. destruct e as [|[|e]]; cbn; intuition discriminate.
  - eexists. exists 0. eexists. split; [left; reflexivity|]. cbn. eexists. split; [left; reflexivity|]. split; [|reflexivity].
    cbn. split; [auto|]. intuition discriminate.
Qed.
Lemma unused_list_refuted : exists gone rules (w : world nat) weight, absent w gone
  /\ flat_map (prune gone false) rules = []
  /\ exists b e x, In b (flat_map (nested_blocks w weight [] []) rules) /\ applies b e x.
Proof.
  exists [0], [Style [[Atom 0]] [] [Style [[Is [[Atom 1]; [Nesting]]]] [1] []]], (chain [[1]]), (fun _ => (0, 1, 0)%N).
  split; [|split; [reflexivity|]].
  - intros n e [<-|[]]. cbn. destruct e as [|[|e]]; cbn; intuition discriminate.
  - eexists. exists 0. eexists. split; [left; reflexivity|]. cbn. eexists. split; [left; reflexivity|]. split; [|reflexivity].
    cbn. split; [auto|]. auto.
Qed.
