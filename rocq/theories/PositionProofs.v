(** * Proofs about [position] *)

From Coq Require Import List String Bool.
From Verif Require Import PositionModel PositionSpec.
Import ListNotations.

Lemma keyword_iff : forall w v, parse_position w = Some v <-> keyword w v.
Proof.
  intros w v; split.
  - unfold parse_position.
    destruct (String.eqb_spec w "static"); [subst; intros [= <-]; constructor|].
    destruct (String.eqb_spec w "relative"); [subst; intros [= <-]; constructor|].
    destruct (String.eqb_spec w "absolute"); [subst; intros [= <-]; constructor|].
    destruct (String.eqb_spec w "fixed"); [subst; intros [= <-]; constructor|].
    destruct (String.eqb_spec w "sticky"); [subst; intros [= <-]; constructor|].
    destruct (String.eqb_spec w "-webkit-sticky"); [subst; intros [= <-]; constructor|].
    discriminate.
  - intros H; destruct H; reflexivity.
Qed.

Lemma effective_app : forall b l m e,
  effective b (l ++ m) e = effective b m (effective b l e).
Proof. intros b l; induction l as [|d l IH]; intros m e; [reflexivity|apply IH]. Qed.

Lemma out_nil : forall l st, Forall typed l -> snd st = [] ->
  snd (fold_left handle l st) = [].
Proof.
  intros l st H; revert st; induction H as [|d l (w & v & -> & _) H IH]; intros st E; [exact E|].
  apply IH; exact E.
Qed.

(** What the run of sticky declarations at the end leaves in the handler *)
Lemma sticky_run : forall l b w out,
  forallb sticky l = true ->
  exists b' w', fst (fold_left handle l (Some (Sticky b w), out)) = Some (Sticky b' w')
    /\ (b = true -> b' = true) /\ (w = true -> w' = true).
Proof.
  intros l; induction l as [|d l IH]; intros b w out H.
  - exists b, w; cbn; auto.
  - cbn in H; apply andb_true_iff in H as [Hd H].
    destruct d as [[| | | |x y]|]; try discriminate Hd.
    cbn [fold_left handle fst snd].
    destruct (IH (b || x) (w || y) out H) as (b' & w' & E & B & W).
    exists b', w'; split; [exact E|].
    split; intros ->; [apply B|apply W]; reflexivity.
Qed.

Lemma stuck_stays : forall br l,
  forallb sticky l = true -> effective br l (Some Stuck) = Some Stuck.
Proof.
  intros br l; induction l as [|d l IH]; intros H; [reflexivity|].
  cbn in H; apply andb_true_iff in H as [Hd H].
  destruct d as [[| | | |x y]|]; try discriminate Hd.
  cbn [effective effect_of].
  destruct (x && knows_sticky br || y && knows_webkit br); apply IH; exact H.
Qed.

Section Run.
  Variable P : bool * bool -> bool * bool.
  Variable br : browser.

  Hypothesis keeps : forall b w,
    (b && knows_sticky br) || (w && knows_webkit br) = true ->
    (fst (P (b, w)) && knows_sticky br) || (snd (P (b, w)) && knows_webkit br) = true.

  Lemma finalize_sticky : forall b w,
    (b && knows_sticky br) || (w && knows_webkit br) = true ->
    effective br (finalize P (Some (Sticky b w))) None = Some Stuck.
  Proof.
    intros b w H; specialize (keeps b w H); unfold finalize.
    destruct (P (b, w)) as [b' w']; cbn [fst snd] in keeps.
    destruct b', w', br as [ks kw]; cbn in *; destruct ks, kw; try discriminate keeps; reflexivity.
  Qed.

  Lemma run_kept : forall l,
    Forall typed l -> settled br l -> effective br (run P l) None = effective br l None.
  Proof.
    intros l T (before & d & after & -> & U & A).
    unfold run. rewrite (out_nil _ (None, []) T eq_refl); cbn [app].
    rewrite effective_app. apply Forall_app in T as [T1 T2].
    inversion T2 as [|d0 a0 Td Ta Eq]; subst d0 a0.
    rewrite fold_left_app; cbn [fold_left effective].
    set (st := fold_left handle before (None, [])).
    destruct Td as (wd & v & -> & Kw).
    destruct (sticky (Pos v)) eqn:S.
    - destruct v as [| | | |b w]; try discriminate S.
      cbn [effect_of] in U |- *.
      destruct (b && knows_sticky br || w && knows_webkit br) eqn:E; [|congruence].
      assert (Fa : forallb sticky after = true) by (destruct A as [-> |[_ A]]; [reflexivity|exact A]).
      rewrite (stuck_stays br after Fa).
      cbn [handle].
      assert (X : exists b1 w1, (match fst st with
             | Some (Sticky b0 w0) => Sticky (b0 || b) (w0 || w)
             | _ => Sticky b w
             end) = Sticky b1 w1 /\ (b = true -> b1 = true) /\ (w = true -> w1 = true)).
      { destruct (fst st) as [[| | | |b0 w0]|];
          [exists b, w|exists b, w|exists b, w|exists b, w|exists (b0 || b), (w0 || w)|exists b, w];
          (split; [reflexivity|]); split; intros ->; rewrite ?orb_true_r; reflexivity. }
      destruct X as (b1 & w1 & -> & B1 & W1).
      destruct (sticky_run after b1 w1 (snd st) Fa) as (b2 & w2 & -> & B2 & W2).
      apply finalize_sticky.
      apply orb_true_iff in E; apply orb_true_iff.
      destruct E as [E|E]; apply andb_true_iff in E as [E1 E2]; [left|right];
        apply andb_true_iff; split; auto.
    - destruct A as [-> |[A _]]; [|congruence].
      destruct v as [| | | |b w]; try discriminate S; cbn; destruct (fst st) as [[]|]; reflexivity.
  Qed.
End Run.

Lemma block_kept : forall br l,
  Forall typed l -> settled br l ->
  effective br (run no_targets l) None = effective br l None.
Proof. intros br l; apply run_kept; intros b w H; exact H. Qed.

Lemma targets_kept : forall exclude include answer br l,
  knows_sticky br = true -> Forall typed l -> settled br l ->
  effective br (run (given exclude include answer) l) None = effective br l None.
Proof.
  intros exclude include answer br l K; apply run_kept; intros b w H.
  unfold given; cbn [fst]. rewrite K in *.
  destruct b, exclude; cbn [andb negb fst snd] in *; try exact H; try reflexivity.
  destruct include, answer; reflexivity.
Qed.

Definition unknown (br : browser) (p : option position) : Prop :=
  match p with
  | None => True
  | Some (Sticky b w) => (b && knows_sticky br) || (w && knows_webkit br) = false
  | Some _ => False
  end.

Lemma unknown_run : forall br l st,
  forallb sticky l = true -> effective br l None = None ->
  unknown br (fst st) -> snd st = [] ->
  unknown br (fst (fold_left handle l st)) /\ snd (fold_left handle l st) = [].
Proof.
  intros br l; induction l as [|d l IH]; intros st S E U N; [split; assumption|].
  cbn in S; apply andb_true_iff in S as [Sd S].
  destruct d as [[| | | |x y]|]; try discriminate Sd.
  cbn [effective effect_of] in E.
  destruct (x && knows_sticky br || y && knows_webkit br) eqn:X.
  { rewrite (stuck_stays br l S) in E; discriminate E. }
  cbn [fold_left]; apply IH; [exact S|exact E| |exact N].
  cbn [handle fst]. destruct (fst st) as [[| | | |b w]|]; cbn in U |- *; try contradiction.
  - apply orb_false_iff in X as [X1 X2]; apply orb_false_iff in U as [U1 U2].
    destruct b, w, x, y, (knows_sticky br), (knows_webkit br); cbn in *; congruence.
  - exact X.
Qed.

Lemma unknown_kept : forall exclude include answer br l,
  knows_sticky br = true -> forallb sticky l = true -> effective br l None = None ->
  effective br (run (given exclude include answer) l) None = None.
Proof.
  intros exclude include answer br l K S E; unfold run.
  destruct (unknown_run br l (None, []) S E I eq_refl) as [U ->]; cbn [app].
  destruct (fst (fold_left handle l (None, []))) as [[| | | |b w]|]; cbn in U;
    try contradiction; [|reflexivity].
  rewrite K in U. destruct b; [discriminate U|]. cbn in U |- *.
  destruct w; [|reflexivity]. cbn in U |- *. rewrite U; reflexivity.
Qed.

Lemma tokens_kept : forall p l, filter tokens (run p l) = filter tokens l.
Proof.
  intros p l.
  assert (A : forall st, filter tokens (snd (fold_left handle l st))
                         = (filter tokens (snd st) ++ filter tokens l)%list).
  { induction l as [|d l IH]; intros st; [symmetry; apply app_nil_r|].
    cbn [fold_left]; rewrite IH.
    destruct d as [v|n]; cbn [handle snd filter tokens]; [reflexivity|].
    rewrite filter_app, <- app_assoc; reflexivity. }
  unfold run; rewrite filter_app, A; cbn [snd filter app].
  replace (filter tokens (finalize p _)) with (@nil decl); [apply app_nil_r|].
  destruct (fst (fold_left handle l (None, []))) as [[| | | |b w]|]; cbn [finalize]; try reflexivity.
  destruct (p (b, w)) as [[] []]; reflexivity.
Qed.

Lemma fallback_lost :
  effective old [Pos Relative; Pos (Sticky true false)] None = Some (Placed Relative)
  /\ effective old (run no_targets [Pos Relative; Pos (Sticky true false)]) None = None.
Proof. split; reflexivity. Qed.

Lemma tokens_lost : forall br n,
  effective br [Pos Relative; Tokens n] None = Some (Computed n)
  /\ effective br (run no_targets [Pos Relative; Tokens n]) None = Some (Placed Relative).
Proof. intros br n; split; reflexivity. Qed.

Lemma printed_keyword : forall p l d,
  Forall typed l -> In d (run p l) ->
  exists v, d = Pos v /\ keyword (print_position v) v.
Proof.
  intros p l d T I. unfold run in I. rewrite (out_nil _ (None, []) T eq_refl) in I; cbn [app] in I.
  destruct (fst (fold_left handle l (None, []))) as [[| | | |b w]|]; cbn [finalize] in I.
  1-4: destruct I as [<-|[]]; eexists; split; [reflexivity|constructor].
  - destruct (p (b, w)) as [[] []]; cbn in I;
      repeat (destruct I as [<-|I]; [eexists; split; [reflexivity|constructor]|]); destruct I.
  - destruct I.
Qed.
