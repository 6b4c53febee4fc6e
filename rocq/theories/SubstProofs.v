(** Proofs about the substitution of variables. *)
From Coq Require Import List Bool String PeanoNat Lia.
From Verif Require Import TokModel TokReadProofs SubstModel SubstSpec.
Import ListNotations.

Section Proofs.
Variable vars : string -> option (list item).

Definition Ends (seen : list string) (l r : list item) : Prop := ends_with (fun f => inline vars f seen l) r.
Definition EndsV (t t' : item) : Prop :=
  match t with
  | Var n (Some fb) => exists r, Ends [] fb r /\ t' = Var n (Some r)
  | Env n ix (Some fb) => exists r, Ends [] fb r /\ t' = Env n ix (Some r)
  | Func n args => exists r, Ends [] args r /\ t' = Func n r
  | _ => t' = t
  end.

Lemma ends_nil : forall seen, Ends seen [] [].
Proof. intros seen. exists 1. intros [|f] H; [lia|reflexivity]. Qed.

(** One step of the loop, once the token is visited. *)
Definition after (f : nat) (seen : list string) (t' : item) (r : list item) : option (list item) :=
  let advance := match inline vars f [] r with Some l => Some (t' :: l) | None => None end in
  match t' with
  | Var n fb =>
      match vars n with
      | Some value => if member n seen then advance else inline vars f (n :: seen) (value ++ r)
      | None =>
          match fb with
          | Some x => if member n seen then advance else inline vars f (n :: seen) (x ++ r)
          | None => advance
          end
      end
  | _ => advance
  end.

Lemma visit_step : forall t t', EndsV t t' -> exists F, forall f seen r, F <= f ->
  inline vars (S f) seen (t :: r) = after f seen t' r.
Proof.
  intros t t' H. destruct t as [x|ts|u|n|n [fb|]|n ix [fb|]|n args]; cbn [EndsV] in H; try (subst t'; exists 0; intros; reflexivity).
  - destruct H as (x & (F & E) & ->). exists F. intros f seen r L. cbn [inline]. rewrite (E f L). reflexivity.
  - destruct H as (x & (F & E) & ->). exists F. intros f seen r L. cbn [inline]. rewrite (E f L). reflexivity.
  - destruct H as (x & (F & E) & ->). exists F. intros f seen r L. cbn [inline]. rewrite (E f L). reflexivity.
Qed.

Definition stays (t : item) : Prop :=
  match t with Var n fb => vars n = None /\ fb = None | _ => True end.

Lemma ends_plain : forall seen t t' r R, EndsV t t' -> stays t' -> Ends [] r R -> Ends seen (t :: r) (t' :: R).
Proof.
  intros seen t t' r R V St (G & E). destruct (visit_step t t' V) as (F & H). exists (S (F + G)). intros [|f] L; [lia|].
  rewrite H by lia. unfold after. rewrite (E f ltac:(lia)).
  destruct t'; try reflexivity. cbn [stays] in St. destruct St as [-> ->]. reflexivity.
Qed.

Lemma ends_value : forall seen t n fb v r R, EndsV t (Var n fb) -> vars n = Some v -> member n seen = false ->
  Ends (n :: seen) (v ++ r) R -> Ends seen (t :: r) R.
Proof.
  intros seen t n fb v r R V Ev M (G & E). destruct (visit_step _ _ V) as (F & H). exists (S (F + G)). intros [|f] L; [lia|].
  rewrite H by lia. unfold after. rewrite Ev, M. apply E. lia.
Qed.

Lemma ends_fallback : forall seen t n x r R, EndsV t (Var n (Some x)) -> vars n = None -> member n seen = false ->
  Ends (n :: seen) (x ++ r) R -> Ends seen (t :: r) R.
Proof.
  intros seen t n x r R V Ev M (G & E). destruct (visit_step _ _ V) as (F & H). exists (S (F + G)). intros [|f] L; [lia|].
  rewrite H by lia. unfold after. rewrite Ev, M. apply E. lia.
Qed.

(** ** What is resolved stays *)

Inductive Done : item -> Prop :=
  | DTok : forall t, Done (Tok t)
  | DTyped : forall t, Done (Typed t)
  | DUrl : forall t, Done (Url t)
  | DDashed : forall t, Done (Dashed t)
  | DMissing : forall n, vars n = None -> Done (Var n None)
  | DEnv : forall n ix, Done (Env n ix None)
  | DEnvF : forall n ix fb, Forall Done fb -> Done (Env n ix (Some fb))
  | DFunc : forall n args, Forall Done args -> Done (Func n args).

Scheme resolves_ind2 := Induction for Resolves Sort Prop
  with resolves_to_ind2 := Induction for ResolvesTo Sort Prop.
Combined Scheme resolves_mut from resolves_ind2, resolves_to_ind2.

Lemma resolves_done :
  (forall l r (H : Resolves vars l r), Forall Done r) /\ (forall t r (H : ResolvesTo vars t r), Forall Done r).
Proof.
  apply (resolves_mut vars (fun l r _ => Forall Done r) (fun t r _ => Forall Done r)); intros; try assumption;
    try (repeat constructor; assumption).
  apply Forall_app. split; assumption.
Qed.

Lemma done_list : forall l, Forall (fun t => Done t -> EndsV t t) l -> Forall Done l -> Ends [] l l.
Proof.
  induction l as [|t l IH]; intros H D; [apply ends_nil|].
  apply ends_plain; [exact (Forall_inv H (Forall_inv D))| |apply IH; eapply Forall_inv_tail; eassumption].
  pose proof (Forall_inv D) as X. destruct X; cbn [stays]; auto.
Qed.

Lemma done_visit : forall t, Done t -> EndsV t t.
Proof.
  induction t as [t|ts|u|n|n fb IH|n ix fb IH|n l IH] using item_ind2; intros D; try reflexivity.
  - inversion D; subst. reflexivity.
  - inversion D as [| | | | | |? ? ? F|]; subst; [reflexivity|]. cbn [EndsV]. eexists. split; [|reflexivity]. apply done_list; assumption.
  - inversion D as [| | | | | | |? ? F]; subst. cbn [EndsV]. eexists. split; [|reflexivity]. apply done_list; assumption.
Qed.

Lemma done_through : forall l, Forall Done l -> forall seen r R, l <> [] \/ seen = [] -> Ends [] r R -> Ends seen (l ++ r) (l ++ R).
Proof.
  induction l as [|t l IH]; intros D seen r R NE E; cbn [app].
  - destruct NE as [NE| ->]; [congruence|exact E].
  - apply ends_plain; [apply done_visit; exact (Forall_inv D)| |apply IH; [exact (Forall_inv_tail D)|right; reflexivity|exact E]].
    pose proof (Forall_inv D) as X. destruct X; cbn [stays]; auto.
Qed.

(** ** Variables that do not depend on themselves *)

Variable rank : string -> nat.
Hypothesis AC : Acyclic vars rank.
Hypothesis SO : Solid vars.

Definition below (k : nat) (t : item) : Prop := forall n fb v, Within (Var n fb) t -> vars n = Some v -> rank n < k.
Definition firm (t : item) : Prop := forall n, ~ Within (Var n (Some [])) t.
Definition fresh (k : nat) (seen : list string) : Prop := Forall (fun n => exists v, vars n = Some v /\ k <= rank n) seen.

Definition ItemOk (k : nat) (t : item) : Prop :=
  below k t -> firm t -> exists r, ResolvesTo vars t r /\ r <> []
    /\ forall seen rest R, fresh k seen -> Ends [] rest R -> Ends seen (t :: rest) (r ++ R).

Lemma list_ok : forall k l, Forall (ItemOk k) l -> Forall (below k) l -> Forall firm l ->
  exists r, Resolves vars l r /\ (l <> [] -> r <> [])
    /\ forall seen rest R, fresh k seen -> l <> [] \/ seen = [] -> Ends [] rest R -> Ends seen (l ++ rest) (r ++ R).
Proof.
  intros k l. induction l as [|t l IH]; intros O B F.
  - exists []. split; [constructor|]. split; [congruence|]. intros seen rest R _ [X| ->] E; [congruence|exact E].
  - destruct (Forall_inv O (Forall_inv B) (Forall_inv F)) as (r1 & R1 & N1 & E1).
    destruct (IH (Forall_inv_tail O) (Forall_inv_tail B) (Forall_inv_tail F)) as (r2 & R2 & _ & E2).
    exists (r1 ++ r2). split; [constructor; assumption|]. split; [intros _; destruct r1; [congruence|discriminate]|].
    intros seen rest R FR _ E. rewrite <- List.app_assoc. cbn [app]. apply E1; [exact FR|]. apply E2; [constructor|right; reflexivity|exact E].
Qed.

Lemma fresh_member : forall k seen n, fresh k seen -> (forall v, vars n = Some v -> rank n < k) -> member n seen = false.
Proof.
  intros k seen n F H. unfold member. induction F as [|x seen (v & Ev & L) _ IH]; [reflexivity|]. cbn [existsb]. rewrite IH, orb_false_r.
  apply String.eqb_neq. intros ->. specialize (H v Ev). lia.
Qed.

Lemma items_ok : forall k t, ItemOk k t.
Proof.
  induction k as [k KI] using (well_founded_induction Nat.lt_wf_0).
  induction t as [t|ts|u|n|n fb IH|n ix fb IH|n l IH] using item_ind2; intros B F;
    try (eexists; split; [constructor|]; split; [discriminate|]; intros; cbn [app]; apply ends_plain; [reflexivity|exact I|assumption]).
  - assert (FB : match fb with
                 | None => True
                 | Some x => exists r, Resolves vars x r /\ r <> [] /\ Ends [] x r
                 end).
    { destruct fb as [x|]; [|exact I].
      assert (NE : x <> []). { intros ->. apply (F n). constructor. }
      destruct (list_ok k x IH) as (r & R1 & N & E).
      - apply Forall_forall. intros u I m g w W. apply (B m g w). econstructor; eassumption.
      - apply Forall_forall. intros u I m W. apply (F m). econstructor; eassumption.
      - exists r. split; [exact R1|]. split; [exact (N NE)|]. specialize (E [] [] [] ltac:(constructor) ltac:(auto) (ends_nil [])).
        rewrite !app_nil_r in E. exact E. }
    assert (V : exists fb', EndsV (Var n fb) (Var n fb')
                /\ match fb, fb' with Some x, Some r => Resolves vars x r /\ r <> [] | None, None => True | _, _ => False end).
    { destruct fb as [x|]; [|exists None; split; [reflexivity|exact I]].
      destruct FB as (r & R1 & N & E). exists (Some r). split; [exists r; split; [exact E|reflexivity]|auto]. }
    destruct V as (fb' & V & M).
    destruct (vars n) as [v|] eqn:Ev.
    + pose proof (B n fb v (WSelf _) Ev) as LT. destruct (SO n v Ev) as [NE SV].
      destruct (list_ok (rank n) v) as (r & R1 & N & E).
      * apply Forall_forall. intros u _. apply KI. exact LT.
      * apply Forall_forall. intros u I m g w W Ew. apply (AC n v m w Ev); [exists u, g; auto|exact Ew].
      * apply Forall_forall. intros u I m W. exact (SV m u I W).
      * exists r. split; [econstructor; eassumption|]. split; [exact (N NE)|]. intros seen rest R FR X.
        eapply ends_value; [exact V|exact Ev| |].
        -- apply (fresh_member k); [exact FR|]. intros v' _. exact LT.
        -- apply E; [|left; exact NE|exact X]. constructor; [exists v; split; [exact Ev|lia]|].
           eapply Forall_impl; [|exact FR]. intros a (w & Ew & La). exists w. split; [exact Ew|lia].
    + destruct fb as [x|]; destruct fb' as [r|]; try contradiction.
      * destruct M as [R1 NR]. exists r. split; [apply RFallback; assumption|]. split; [exact NR|]. intros seen rest R FR X.
        eapply ends_fallback; [exact V|exact Ev| |].
        -- apply (fresh_member k); [exact FR|]. intros v' E. congruence.
        -- apply done_through; [apply (proj1 resolves_done x r R1)|left; exact NR|exact X].
      * exists [Var n None]. split; [apply RMissing; exact Ev|]. split; [discriminate|]. intros seen rest R FR X. cbn [app].
        apply ends_plain; [exact V|split; [exact Ev|reflexivity]|exact X].
  - destruct fb as [x|].
    + destruct (list_ok k x IH) as (r & R1 & _ & E).
      * apply Forall_forall. intros u I m g w W. apply (B m g w). econstructor; eassumption.
      * apply Forall_forall. intros u I m W. apply (F m). econstructor; eassumption.
      * exists [Env n ix (Some r)]. split; [constructor; exact R1|]. split; [discriminate|]. intros seen rest R FR X. cbn [app].
        apply ends_plain; [|exact I|exact X]. exists r. split; [|reflexivity].
        specialize (E [] [] [] ltac:(constructor) ltac:(auto) (ends_nil [])). rewrite !app_nil_r in E. exact E.
    + exists [Env n ix None]. split; [constructor|]. split; [discriminate|]. intros seen rest R FR X. cbn [app].
      apply ends_plain; [reflexivity|exact I|exact X].
  - destruct (list_ok k l IH) as (r & R1 & _ & E).
    * apply Forall_forall. intros u I m g w W. apply (B m g w). econstructor; eassumption.
    * apply Forall_forall. intros u I m W. apply (F m). econstructor; eassumption.
    * exists [Func n r]. split; [constructor; exact R1|]. split; [discriminate|]. intros seen rest R FR X. cbn [app].
      apply ends_plain; [|exact I|exact X]. exists r. split; [|reflexivity].
      specialize (E [] [] [] ltac:(constructor) ltac:(auto) (ends_nil [])). rewrite !app_nil_r in E. exact E.
Qed.

Lemma bound_exists : forall l : list item, exists k, Forall (below k) l.
Proof.
  assert (I : forall t, exists k, below k t).
  { assert (L : forall l, Forall (fun t => exists k, below k t) l -> exists k, Forall (below k) l).
    { induction 1 as [|t l (k1 & H1) _ (k2 & H2)]; [exists 0; constructor|]. exists (k1 + k2). constructor.
      - intros n fb v W E. specialize (H1 n fb v W E). lia.
      - eapply Forall_impl; [|exact H2]. intros u Hu n fb v W E. specialize (Hu n fb v W E). lia. }
    induction t as [t|ts|u|n|n fb IH|n ix fb IH|n l IH] using item_ind2;
      try (exists 0; intros m g v W; inversion W; fail).
    - destruct fb as [x|].
      + destruct (L x IH) as [k Hk]. exists (S (rank n + k)). intros m g v W E. inversion W as [|? ? ? u I Wu| |]; subst; [lia|].
        rewrite Forall_forall in Hk. specialize (Hk u I m g v Wu E). lia.
      + exists (S (rank n)). intros m g v W E. inversion W; subst. lia.
    - destruct fb as [x|].
      + destruct (L x IH) as [k Hk]. exists k. intros m g v W E. inversion W as [| |? ? ? ? u I Wu|]; subst.
        rewrite Forall_forall in Hk. exact (Hk u I m g v Wu E).
      + exists 0. intros m g v W E. inversion W.
    - destruct (L l IH) as [k Hk]. exists k. intros m g v W E. inversion W as [| | |? ? ? u I Wu]; subst.
      rewrite Forall_forall in Hk. exact (Hk u I m g v Wu E). }
  induction l as [|t l (k2 & H2)]; [exists 0; constructor|]. destruct (I t) as [k1 H1]. exists (k1 + k2). constructor.
  - intros n fb v W E. specialize (H1 n fb v W E). lia.
  - eapply Forall_impl; [|exact H2]. intros u Hu n fb v W E. specialize (Hu n fb v W E). lia.
Qed.

Theorem substitute_resolves : forall l, solid l -> exists r, Resolves vars l r /\ ends_with (fun f => substitute vars f l) r.
Proof.
  intros l S. destruct (bound_exists l) as [k B].
  destruct (list_ok k l) as (r & R1 & _ & E).
  - apply Forall_forall. intros t _. apply items_ok.
  - exact B.
  - apply Forall_forall. intros u I n. exact (S n u I).
  - exists r. split; [exact R1|]. specialize (E [] [] [] ltac:(constructor) ltac:(auto) (ends_nil [])). rewrite !app_nil_r in E. exact E.
Qed.
End Proofs.

(** ** One result, and what is left in it *)

Section Result.
Variable vars : string -> option (list item).

Lemma resolves_once :
  (forall l r (H : Resolves vars l r), forall r', Resolves vars l r' -> r = r')
  /\ (forall t r (H : ResolvesTo vars t r), forall r', ResolvesTo vars t r' -> r = r').
Proof.
  apply (resolves_mut vars (fun l r _ => forall r', Resolves vars l r' -> r = r') (fun t r _ => forall r', ResolvesTo vars t r' -> r = r'));
    try (intros; match goal with H : ResolvesTo _ _ _ |- _ => inversion H; subst; reflexivity || congruence end; fail).
  - intros r' H. inversion H. reflexivity.
  - intros t l r rs _ IH1 _ IH2 r' H. inversion H; subst. rewrite (IH1 r0), (IH2 rs0); auto.
  - intros n fb v r Ev _ IH r' H. inversion H; subst; try congruence. apply IH. congruence.
  - intros n fb r Ev _ IH r' H. inversion H; subst; try congruence. apply IH. assumption.
  - intros n ix fb r _ IH r' H. inversion H; subst. do 3 f_equal. apply IH. assumption.
  - intros n args r _ IH r' H. inversion H; subst. do 2 f_equal. apply IH. assumption.
Qed.

Lemma done_within : forall t n fb, Done vars t -> Within (Var n fb) t -> vars n = None /\ fb = None.
Proof.
  induction t as [t|ts|u|m|m g IH|m ix g IH|m l IH] using item_ind2; intros n fb D W;
    inversion W; subst; inversion D; subst; auto; cbn [Opt] in IH;
    match goal with
    | I : In ?u ?x, F : Forall (Done vars) ?x, Wu : Within _ ?u |- _ =>
        rewrite Forall_forall in F, IH; exact (IH u I n fb (F u I) Wu)
    end.
Qed.

Theorem nothing_left : forall l r, Resolves vars l r -> forall u n fb, In u r -> Within (Var n fb) u -> vars n = None /\ fb = None.
Proof.
  intros l r H u n fb I W. pose proof (proj1 (resolves_done vars) l r H) as D. rewrite Forall_forall in D.
  exact (done_within u n fb (D u I) W).
Qed.

(** ** A variable that refers to itself behind another token *)
Theorem never_ends : forall (a : string) (x : token) (v rest : list item),
  vars a = Some (Tok x :: Var a None :: v) ->
  forall fuel, substitute vars fuel (Var a None :: rest) = None.
Proof.
  intros a x v rest E fuel. unfold substitute. revert rest.
  induction fuel as [fuel IH] using (well_founded_induction Nat.lt_wf_0). intros rest.
  destruct fuel as [|f]; [reflexivity|]. cbn [inline]. rewrite E. cbn [member existsb app].
  destruct f as [|f]; [reflexivity|]. cbn [inline]. rewrite (IH f ltac:(lia)). reflexivity.
Qed.
End Result.
