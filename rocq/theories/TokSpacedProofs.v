(** Values whose tokens do not touch are kept. *)
From Coq Require Import List Bool String Ascii PeanoNat NArith ZArith QArith Lia.
From Verif Require Import IdentModel IdentSpec IdentProofs TokSpec TokModel TokListSpec TokNumProofs TokProofs TokListProofs TokReadProofs.
Import ListNotations.
Local Open Scope bool_scope.
Local Open Scope string_scope.
Local Open Scope nat_scope.

Lemma free_before_apart : forall t u, may_end t = true -> free_before u = true -> apart t u = true.
Proof.
  intros t u M F.
  assert (K : numeral u = false /\ wordy u = false /\ delim_is 45 u = false /\ delim_is 62 u = false /\ delim_is 37 u = false
              /\ delim_is 42 u = false /\ delim_is 33 u = false /\ (match u with TOpen Paren => true | _ => false end) = false
              /\ (match u with TMatch Substring => true | _ => false end) = false).
  { destruct u as [n|n|n|n|s|s|n|d|n|n|n v|w|c| | | |p| | |b|b]; try discriminate F; try (repeat split; fail).
    - cbn [free_before existsb] in F. apply negb_true_iff in F. rewrite !orb_false_iff in F.
      destruct F as (F1 & F2 & F3 & F4 & F5 & _). cbn [delim_is numeral wordy]. repeat split; assumption.
    - destruct p; try discriminate F; repeat split.
    - destruct b; try discriminate F; repeat split. }
  destruct K as (K1 & K2 & K3 & K4 & K5 & K6 & K7 & K8 & K9).
  destruct t as [n|n|n|n|s|s|n|d|n|n|n v|w|c| | | |p| | |b|b]; cbn [apart may_end] in *; rewrite ?K1, ?K2, ?K3, ?K4, ?K5, ?K6, ?K7, ?K8, ?K9;
    cbn [orb negb andb]; rewrite ?andb_false_r; try reflexivity.
  - rewrite M. reflexivity.
  - destruct (is 35 d), (is 43 d || is 46 d), (is 45 d), (is 47 d), (is 60 d), (is 64 d); reflexivity.
Qed.

Lemma free_after_apart : forall t u, free_after t = true -> apart t u = true.
Proof.
  intros t u F. destruct t as [n|n|n|n|s|s|n|d|n|n|n v|w|c| | | |p| | |b|b]; try discriminate F; try reflexivity.
  - cbn [free_after apart] in *. rewrite F. reflexivity.
  - cbn [free_after existsb] in F. apply negb_true_iff in F. rewrite !orb_false_iff in F.
    destruct F as (F1 & F2 & F3 & F4 & F5 & F6 & F7 & _). cbn [apart]. rewrite F1, F2, F4, F3, F5, F6, F7. reflexivity.
Qed.

Lemma apart_space_end : forall t w, apart t (TSpace w) = true -> may_end t = true.
Proof. intros t w H. destruct t; try reflexivity. cbn [apart may_end] in *. rewrite orb_false_r in H. exact H. Qed.

Lemma last_cons : forall (t : token) l d, List.last (t :: l) d = List.last l t.
Proof.
  intros t l. revert t. induction l as [|u l IH]; intros t d; [reflexivity|].
  change (List.last (t :: u :: l) d) with (List.last (u :: l) d). rewrite IH. symmetry. apply IH.
Qed.

Lemma apart_app : forall a b, all_apart a = true -> all_apart b = true ->
  match b with [] => True | u :: _ => forall d, a <> [] -> apart (List.last a d) u = true end ->
  all_apart (a ++ b)%list = true.
Proof.
  induction a as [|t a IH]; intros b A B J; [exact B|]. cbn [List.app all_apart] in *.
  apply andb_true_iff in A. destruct A as [A1 A2]. apply andb_true_iff. split.
  - destruct a as [|u a]; [|exact A1]. cbn [List.app]. destruct b as [|u b]; [exact A1|]. exact (J t ltac:(discriminate)).
  - apply IH; [exact A2|exact B|]. destruct b as [|u b]; [exact I|]. intros d NE.
    pose proof (J d ltac:(discriminate)) as H. rewrite last_cons in H. destruct a as [|x a]; [congruence|].
    rewrite last_cons in *. exact H.
Qed.

Lemma all_apart_last : forall a, all_apart a = true -> a <> [] -> forall d, may_end (List.last a d) = true.
Proof.
  induction a as [|t a IH]; intros A NE d; [congruence|]. cbn [all_apart] in A. apply andb_true_iff in A. destruct A as [A1 A2].
  rewrite last_cons. destruct a as [|u a]; [exact A1|]. exact (IH A2 ltac:(discriminate) t).
Qed.

Lemma all_apart_app_l : forall a w, all_apart (a ++ [TSpace w])%list = true -> all_apart a = true.
Proof.
  induction a as [|t a IH]; intros w H; [reflexivity|]. cbn [List.app all_apart] in *. apply andb_true_iff in H. destruct H as [H1 H2].
  apply andb_true_iff. split; [|eapply IH; exact H2]. destruct a as [|u a]; [|exact H1]. eapply apart_space_end. exact H1.
Qed.

Lemma kept_app : forall m a b, kept m (a ++ b)%list = (kept m a ++ kept m b)%list.
Proof. intros [] a b; [apply filter_app|reflexivity]. Qed.

Lemma indices_suffix : forall fuel r ix r', read_indices fuel r = (ix, r') -> exists p, r = (p ++ r')%list.
Proof.
  induction fuel as [|fu IHf]; intros r ix r' RI; cbn [read_indices] in RI; [injection RI as <- <-; exists []; reflexivity|].
  destruct (skip_split r) as (pre & E1 & _). destruct (skip r) as [|[t x] q]; [injection RI as <- <-; exists []; reflexivity|].
  destruct t as [[]| |]; try (injection RI as <- <-; exists []; reflexivity).
  destruct (n_int n); [|injection RI as <- <-; exists []; reflexivity].
  destruct (read_indices fu q) as [xs q'] eqn:R. injection RI as <- <-. destruct (IHf _ _ _ R) as [p Ep].
  exists (pre ++ (Leaf (TNumber n), x) :: p)%list. rewrite E1, Ep at 1. rewrite <- List.app_assoc. reflexivity.
Qed.

Section Spaced.
Variable o : readers.
Variable m : bool.
Hypothesis AR : apart_readers o m.

Notation toks l := (kept m (all_tokens m l)).

Record Good (t : tree) (T : list token) : Prop := {
  g_apart : all_apart T = true;
  g_ne : dropped m t = false -> T <> [];
  g_none : dropped m t = true -> T = [];
  g_hd : forall u, first_of o t = Some u ->
    match T with u' :: _ => forall x, apart x u = true -> apart x u' = true | [] => True end;
  g_end : forall x, last_of o t = Some x -> forall d u, T <> [] -> apart x u = true -> apart (List.last T d) u = true
}.

Lemma good_list : forall ts Ts, Forall2 Good ts Ts -> gaps o (remaining m ts) = true ->
  all_apart (List.concat Ts) = true /\
  match remaining m ts with
  | [] => List.concat Ts = []
  | y :: _ => List.concat Ts <> [] /\ (forall u, first_of o y = Some u ->
      match List.concat Ts with u' :: _ => forall x, apart x u = true -> apart x u' = true | [] => True end)
  end.
Proof.
  intros ts Ts H. induction H as [|t T ts Ts G _ IH]; intros GA; [split; reflexivity|].
  cbn [remaining filter List.concat] in *. destruct (dropped m t) eqn:D; cbn [negb] in GA |- *.
  - rewrite (g_none _ _ G D). cbn [List.app]. apply IH. exact GA.
  - fold (remaining m ts) in *. cbn [gaps] in GA. apply andb_true_iff in GA. destruct GA as [GA1 GA2].
    destruct (IH GA2) as [IA IB]. pose proof (g_ne _ _ G D) as NE. split.
    + apply apart_app; [exact (g_apart _ _ G)|exact IA|].
      destruct (remaining m ts) as [|y r]; [rewrite IB; exact I|]. destruct IB as [IN IB].
      destruct (List.concat Ts) as [|u c]; [congruence|]. intros d _.
      unfold set_apart in GA1. destruct (last_of o t) as [x|] eqn:EL; destruct (first_of o y) as [v|] eqn:EF; [| | |discriminate].
      * apply (IB v eq_refl). apply (g_end _ _ G x EL d v NE GA1).
      * apply (g_end _ _ G x EL d u NE). apply free_after_apart. exact GA1.
      * apply (IB v eq_refl). apply free_before_apart; [|exact GA1]. apply all_apart_last; [exact (g_apart _ _ G)|exact NE].
    + split; [destruct T; [congruence|discriminate]|]. intros v L. pose proof (g_hd _ _ G v L) as Hh. destruct T; [congruence|exact Hh].
Qed.

(** Items of a list of parts. *)
Definition GoodP (p : tree * option (list item)) : Prop :=
  spaced o m (fst p) = true -> forall l, snd p = Some l -> Good (fst p) (toks l).

Lemma concat_good : forall ps l, Forall GoodP ps -> forallb (spaced o m) (map fst ps) = true ->
  concat_some (map snd ps) = Some l ->
  exists Ts, Forall2 Good (map fst ps) Ts /\ toks l = List.concat Ts.
Proof.
  induction ps as [|[t x] ps IH]; intros l F S H.
  - cbn in H. injection H as <-. exists []. split; [constructor|]. unfold kept. destruct m; reflexivity.
  - cbn [map snd fst concat_some forallb] in *. apply andb_true_iff in S. destruct S as [S1 S2].
    destruct x as [a|]; [|discriminate]. destruct (concat_some (map snd ps)) as [b|] eqn:E; [|discriminate]. injection H as <-.
    destruct (IH b (Forall_inv_tail F) S2 eq_refl) as (Ts & F2 & ET).
    exists (toks a :: Ts). split; [constructor; [exact (Forall_inv F S1 a eq_refl)|exact F2]|].
    cbn [List.concat]. rewrite all_tokens_app, kept_app, ET. reflexivity.
Qed.

Lemma trees_apart : forall ps l, Forall GoodP ps -> forallb (spaced o m) (map fst ps) = true ->
  gaps o (remaining m (map fst ps)) = true ->
  concat_some (map snd ps) = Some l -> all_apart (toks l) = true.
Proof.
  intros ps l F S G H. destruct (concat_good ps l F S H) as (Ts & F2 & ->). apply (good_list _ _ F2 G).
Qed.

Lemma space_toks : forall i, is_space i = true -> exists w, toks [i] = [TSpace w].
Proof.
  intros i H. destruct (space_tokens i H) as [w ->]. exists w. unfold kept. destruct m; reflexivity.
Qed.

Lemma toks_cons : forall i l, toks (i :: l) = (toks [i] ++ toks l)%list.
Proof. intros i l. change (i :: l) with ([i] ++ l)%list. rewrite all_tokens_app, kept_app. reflexivity. Qed.
Lemma toks_app : forall a b, toks (a ++ b)%list = (toks a ++ toks b)%list.
Proof. intros. rewrite all_tokens_app, kept_app. reflexivity. Qed.

Lemma apart_tl : forall w l, all_apart (TSpace w :: l) = true -> all_apart l = true.
Proof. intros w l H. cbn [all_apart] in H. apply andb_true_iff in H. apply H. Qed.

Lemma trim_apart : forall l, all_apart (toks l) = true -> all_apart (toks (trim l)) = true.
Proof.
  intros l H. destruct l as [|a [|b l]]; try exact H.
  assert (LE : List.last (a :: b :: l) a = List.last (b :: l) a) by reflexivity.
  unfold trim. cbn [List.tl]. rewrite LE. clear LE.
  assert (X : (b :: l) = (removelast (b :: l) ++ [List.last (b :: l) a])%list) by (apply app_removelast_last; discriminate).
  unfold drop_last.
  destruct (is_space a) eqn:A; destruct (is_space (List.last (b :: l) a)) eqn:B.
  - destruct (space_toks _ A) as [w E]. rewrite toks_cons, E in H. cbn [List.app] in H. apply apart_tl in H.
    rewrite X, toks_app in H. destruct (space_toks _ B) as [w' E']. rewrite E' in H. eapply all_apart_app_l. exact H.
  - destruct (space_toks _ A) as [w E]. rewrite toks_cons, E in H. cbn [List.app] in H. apply apart_tl in H. exact H.
  - change (a :: b :: l) with ([a] ++ (b :: l))%list in H. rewrite X in H. rewrite List.app_assoc, toks_app in H.
    destruct (space_toks _ B) as [w' E']. rewrite E' in H. apply all_apart_app_l in H. exact H.
  - exact H.
Qed.

(** ** Calls *)

Lemma close_apart : forall T, all_apart T = true -> all_apart (T ++ [TClose Paren])%list = true.
Proof.
  intros T H. apply apart_app; [exact H|reflexivity|]. intros d NE. apply free_before_apart; [|reflexivity].
  apply all_apart_last; assumption.
Qed.

Lemma function_apart : forall f T, is_url f = false -> all_apart T = true -> T <> [] -> all_apart (TFunction f :: T) = true.
Proof.
  intros f T U H NE. cbn [all_apart]. rewrite H. destruct T as [|u T]; [congruence|]. cbn [apart]. rewrite U. reflexivity.
Qed.

Lemma ident_apart : forall n u T, free_before u = true -> all_apart (u :: T) = true -> all_apart (TIdent n :: u :: T) = true.
Proof.
  intros n u T F H. cbn [all_apart] in *. rewrite H. rewrite (free_before_apart (TIdent n) u); [reflexivity|reflexivity|exact F].
Qed.

Lemma comma_apart : forall T, all_apart T = true -> all_apart (TComma :: T) = true.
Proof. intros [|u T] H; [reflexivity|]. cbn [all_apart] in *. rewrite H. reflexivity. Qed.
Lemma space_apart : forall w T, all_apart T = true -> all_apart (TSpace w :: T) = true.
Proof. intros w [|u T] H; [reflexivity|]. cbn [all_apart] in *. rewrite H. reflexivity. Qed.

Lemma kept_fallback : forall fb, (forall l, fb = Some l -> all_apart (toks l) = true) ->
  all_apart (kept m (fallback_tokens m fb)) = true
  /\ match kept m (fallback_tokens m fb) with [] => True | u :: _ => free_before u = true end.
Proof.
  intros [l|] H; [|unfold kept; destruct m; split; reflexivity || exact I].
  cbn [fallback_tokens]. rewrite kept_cons_live by (unfold live; rewrite andb_false_r; reflexivity).
  rewrite kept_app. split; [|reflexivity]. apply comma_apart. specialize (H l eq_refl).
  unfold fallback_space. destruct (starts_space l || m).
  - unfold kept at 1. destruct m; exact H.
  - rewrite kept_cons_live by (unfold live; rewrite andb_false_r; reflexivity).
    replace (kept m []) with (@nil token) by (unfold kept; destruct m; reflexivity). cbn [List.app]. apply space_apart. exact H.
Qed.

Lemma read_fallback_apart : forall dp ps fb,
  (forall pre r l, ps = (pre ++ r)%list -> concat_some (map snd r) = Some l -> all_apart (toks l) = true) ->
  read_fallback dp ps = Some fb -> forall l, fb = Some l -> all_apart (toks l) = true.
Proof.
  intros dp ps fb H R l E. subst fb. unfold read_fallback in R. destruct (skip_split ps) as (pre & E1 & _).
  destruct (skip ps) as [|[t x] r]; [discriminate|]. destruct t as [[]| |]; try discriminate. destruct dp; [discriminate|].
  destruct (concat_some (map snd r)) as [y|] eqn:C; [|discriminate]. injection R as <-. apply trim_apart.
  apply (H (pre ++ [(Leaf TComma, x)])%list r y); [|exact C]. rewrite <- List.app_assoc. exact E1.
Qed.

Lemma gaps_tail : forall pre r, gaps o (remaining m (pre ++ r)%list) = true -> gaps o (remaining m r) = true.
Proof.
  intros pre r. unfold remaining. rewrite filter_app. generalize (filter (fun t => negb (dropped m t)) pre). intros p.
  induction p as [|t p IH]; intros H; [exact H|]. apply IH. cbn [List.app gaps] in H. apply andb_true_iff in H. apply H.
Qed.

Lemma tails_apart : forall ps, Forall GoodP ps -> forallb (spaced o m) (map fst ps) = true ->
  gaps o (remaining m (map fst ps)) = true ->
  forall pre r l, ps = (pre ++ r)%list -> concat_some (map snd r) = Some l -> all_apart (toks l) = true.
Proof.
  intros ps F S G pre r l E C. subst ps. rewrite map_app in S, G. rewrite forallb_app in S. apply andb_true_iff in S.
  apply Forall_app in F. apply (trees_apart r l); [apply F|apply S|eapply gaps_tail; exact G|exact C].
Qed.

Lemma kept_plain : forall t l, live m t = true -> kept m (t :: l) = t :: kept m l.
Proof. intros. apply kept_cons_live. assumption. Qed.
Lemma live_other : forall t, match t with TComment _ => false | _ => true end = true -> live m t = true.
Proof. intros t H. unfold live. destruct t; try discriminate; rewrite andb_false_r; reflexivity. Qed.
Lemma kept_nil : kept m [] = [].
Proof. unfold kept. destruct m; reflexivity. Qed.

(** The tokens of var() and env(). *)
Lemma var_apart : forall f n ix fb, is_url f = false ->
  (forall l, fb = Some l -> all_apart (toks l) = true) ->
  all_apart (kept m ([TFunction f; TIdent n] ++ flat_map (fun x => [TSpace " "; TNumber x]) ix ++ fallback_tokens m fb
                       ++ [TClose Paren])%list) = true.
Proof.
  intros f n ix fb U H. cbn [List.app]. rewrite !kept_plain by (apply live_other; reflexivity).
  destruct (kept_fallback fb H) as [FA FB].
  set (T := kept m (flat_map (fun x => [TSpace " "; TNumber x]) ix ++ fallback_tokens m fb ++ [TClose Paren])%list).
  assert (K : all_apart T = true /\ match T with [] => False | u :: _ => free_before u = true end).
  { unfold T. clear T. induction ix as [|x ix IH]; cbn [flat_map List.app].
    - rewrite kept_app. rewrite (kept_plain (TClose Paren)) by (apply live_other; reflexivity). rewrite kept_nil.
      split; [apply close_apart; exact FA|]. destruct (kept m (fallback_tokens m fb)); [reflexivity|exact FB].
    - rewrite !kept_plain by (apply live_other; reflexivity). split; [|reflexivity].
      destruct IH as [IA IB]. apply space_apart.
      destruct (kept m (flat_map (fun x0 : num => [TSpace " "; TNumber x0]) ix ++ fallback_tokens m fb ++ [TClose Paren])) as [|u T];
        [contradiction|].
      cbn [all_apart] in *. rewrite IA. rewrite (free_before_apart (TNumber x) u); [reflexivity|reflexivity|exact IB]. }
  destruct K as [KA KB]. destruct T as [|u T]; [contradiction|].
  apply function_apart; [exact U| |discriminate]. apply ident_apart; assumption.
Qed.

Lemma single_good : forall t u, match u with TComment _ => false | _ => true end = true -> may_end u = true ->
  dropped m t = false ->
  (forall v, first_of o t = Some v -> forall x, apart x v = true -> apart x u = true) ->
  (forall v, last_of o t = Some v -> forall y, apart v y = true -> apart u y = true) ->
  Good t (kept m [u]).
Proof.
  intros t u C M D A B. rewrite kept_plain by (apply live_other; exact C). rewrite kept_nil. constructor.
  - cbn [all_apart]. rewrite M. reflexivity.
  - discriminate.
  - congruence.
  - exact A.
  - intros x E d y _ H. cbn [List.last]. exact (B x E y H).
Qed.

Lemma typed_good : forall t ts, dropped m t = false -> first_of o t = None -> last_of o t = None ->
  kept m ts <> [] /\ all_apart (kept m ts) = true -> Good t (kept m ts).
Proof.
  intros t ts D A B [N G]. constructor; try congruence; exact G.
Qed.

Lemma last_app1 : forall (T : list token) x d, List.last (T ++ [x])%list d = x.
Proof. intros. apply last_last. Qed.

Definition spaced_all (l : list tree) : bool :=
  (fix go (l : list tree) : bool := match l with [] => true | x :: r => spaced o m x && go r end) l.
Lemma spaced_all_forallb : forall l, spaced_all l = forallb (spaced o m) l.
Proof. induction l as [|x l IH]; [reflexivity|]. cbn [forallb]. rewrite <- IH. reflexivity. Qed.

Lemma under_good : forall d body,
  Forall (fun t => forall d l, spaced o m t = true -> read_tree o d t = Some l -> Good t (toks l)) body ->
  Forall GoodP (under o d body).
Proof.
  intros d body H. unfold under. destruct d; apply Forall_map; rewrite Forall_forall in *; intros t I S l E; cbn [fst snd] in *.
  - discriminate.
  - apply (H t I d l); assumption.
Qed.

Theorem tree_good : forall t d l, spaced o m t = true -> read_tree o d t = Some l -> Good t (toks l).
Proof.
  destruct AR as (AC & AH & AD).
  intros t. induction t as [t|b body IH|f args IH] using tree_ind2; intros d l S H.
  - rewrite read_tree_eq in H.
    assert (D : match t with TComment _ => false | _ => true end = true -> dropped m (Leaf t) = false).
    { intros E. unfold dropped. destruct t; try discriminate; apply andb_false_r. }
    destruct t as [n|n|n|n|x|x|n|c|n|n|n v|w|c| | | |p| | |b|b]; try discriminate.
    + assert (E : toks l = kept m [TIdent n]) by (destruct (starts_dashes n); injection H as <-; reflexivity).
      rewrite E. apply single_good; try reflexivity; try (apply D; reflexivity); intros v X y; injection X as <-; exact (fun h => h).
    + injection H as <-. apply single_good; try reflexivity; try (apply D; reflexivity); intros v X y; injection X as <-; exact (fun h => h).
    + destruct (o_hash o n) as [ts|] eqn:E; injection H as <-; cbn [all_tokens flat_map tokens_of List.app].
      * rewrite app_nil_r. apply typed_good; [apply D; reflexivity| | |apply (AH _ _ E)];
          cbn [last_of first_of]; rewrite E; reflexivity.
      * apply single_good; try reflexivity; try (apply D; reflexivity); intros v X x; cbn [last_of first_of] in X; rewrite E in X;
          injection X as <-; exact (fun h => h).
    + destruct (o_hash o n) as [ts|] eqn:E; injection H as <-; cbn [all_tokens flat_map tokens_of List.app].
      * rewrite app_nil_r. apply typed_good; [apply D; reflexivity| | |apply (AH _ _ E)];
          cbn [last_of first_of]; rewrite E; reflexivity.
      * apply single_good; try reflexivity; try (apply D; reflexivity); intros v X x; cbn [last_of first_of] in X; rewrite E in X;
          injection X as <-; exact (fun h => h).
    + injection H as <-. apply single_good; try reflexivity; try (apply D; reflexivity); intros v X y; injection X as <-; exact (fun h => h).
    + injection H as <-. apply single_good; try reflexivity; try (apply D; reflexivity); intros v X y; injection X as <-; exact (fun h => h).
    + injection H as <-. apply single_good; try reflexivity; try (apply D; reflexivity); intros v X y; injection X as <-; exact (fun h => h).
    + injection H as <-. apply single_good; try reflexivity; try (apply D; reflexivity); intros v X y; injection X as <-; exact (fun h => h).
    + injection H as <-. apply single_good; try reflexivity; try (apply D; reflexivity); intros v X y; injection X as <-; exact (fun h => h).
    + destruct (o_dimension o n v) as [ts|] eqn:E; injection H as <-; cbn [all_tokens flat_map tokens_of List.app].
      * rewrite app_nil_r. apply typed_good; [apply D; reflexivity| | |apply (AD _ _ _ E)];
          cbn [last_of first_of]; rewrite E; reflexivity.
      * apply single_good; try reflexivity; try (apply D; reflexivity); intros w X x; cbn [last_of first_of] in X; rewrite E in X;
          injection X as <-; exact (fun h => h).
    + injection H as <-. apply single_good; try reflexivity; try (apply D; reflexivity); intros v X y; injection X as <-; exact (fun h => h).
    + injection H as <-. cbn [all_tokens flat_map tokens_of List.app]. clear D.
      constructor; unfold kept, dropped; destruct m; cbn [first_of last_of filter andb all_apart may_end];
        first [reflexivity | intros X; discriminate X | intros _ X; discriminate X | intros _; reflexivity | intros u _; exact I
              | intros u X x; injection X as <-; exact (fun h => h) | intros x _ dd u X; elim X; reflexivity
              | intros x X dd u _ Hx; injection X as <-; exact Hx].

    + injection H as <-. apply single_good; try reflexivity; try (apply D; reflexivity); intros v X y; injection X as <-; exact (fun h => h).
    + injection H as <-. apply single_good; try reflexivity; try (apply D; reflexivity); intros v X y; injection X as <-; exact (fun h => h).
    + injection H as <-. apply single_good; try reflexivity; try (apply D; reflexivity); intros v X y; injection X as <-; exact (fun h => h).
    + injection H as <-. apply single_good; try reflexivity; try (apply D; reflexivity); intros v X y; injection X as <-; exact (fun h => h).
    + injection H as <-. apply single_good; try reflexivity; try (apply D; reflexivity); intros v X y; injection X as <-; exact (fun h => h).
    + injection H as <-. apply single_good; try reflexivity; try (apply D; reflexivity); intros v X y; injection X as <-; exact (fun h => h).
  - rewrite read_tree_eq in H. destruct (deep d); [discriminate|].
    destruct (concat_some (map snd (under o d body))) as [x|] eqn:C; [|discriminate]. injection H as <-.
    cbn [spaced] in S. apply andb_true_iff in S. destruct S as [S1 S2]. fold (spaced_all body) in S2. rewrite spaced_all_forallb in S2.
    pose proof (under_good d body IH) as P.
    assert (A : all_apart (toks x) = true).
    { apply (trees_apart (under o d body)); try exact C; try exact P; rewrite under_fst; assumption. }
    assert (E : toks (Tok (TOpen b) :: x ++ [Tok (TClose b)])%list = (TOpen b :: toks x ++ [TClose b])%list).
    { rewrite toks_cons, toks_app. unfold kept. destruct m; reflexivity. }
    rewrite E. constructor.
    + cbn [all_apart]. destruct (toks x ++ [TClose b])%list as [|u T] eqn:EE; [destruct (toks x); discriminate|].
      rewrite <- EE. cbn [apart andb]. apply apart_app; [exact A|reflexivity|]. intros dd NE.
      apply free_before_apart; [|destruct b; reflexivity]. apply all_apart_last; assumption.
    + discriminate.
    + unfold dropped. rewrite andb_false_r. discriminate.
    + intros u L. injection L as <-. intros y. exact (fun h => h).
    + intros y L dd u _ Hx. injection L as <-. change (TOpen b :: toks x ++ [TClose b])%list with ((TOpen b :: toks x) ++ [TClose b])%list.
      rewrite last_app1. reflexivity.
  - rewrite read_tree_eq in H. cbn [spaced] in S. apply andb_true_iff in S. destruct S as [S S3].
    apply andb_true_iff in S. destruct S as [S1 S2]. fold (spaced_all args) in S3. rewrite spaced_all_forallb in S3.
    pose proof (under_good d args IH) as P.
    assert (D : dropped m (Call f args) = false) by (unfold dropped; apply andb_false_r).
    destruct (o_color o f args) as [ts|] eqn:OC.
    { injection H as <-. cbn [all_tokens flat_map tokens_of List.app]. rewrite app_nil_r.
      apply typed_good; [exact D| | |apply (AC _ _ _ OC)]; [cbn [first_of]; rewrite OC; reflexivity|]. cbn [last_of]. rewrite OC. reflexivity. }
    assert (TA : forall pre r l, under o d args = (pre ++ r)%list -> concat_some (map snd r) = Some l -> all_apart (toks l) = true).
    { apply tails_apart; [exact P| |]; rewrite under_fst; assumption. }
    assert (CL : forall T, all_apart ((TFunction f :: T) ++ [TClose Paren])%list = true ->
                   Good (Call f args) ((TFunction f :: T) ++ [TClose Paren])%list).
    { intros T A. constructor; try congruence; try discriminate.
      - intros u X. cbn [first_of] in X. rewrite OC in X. injection X as <-. cbn [List.app]. intros y. exact (fun h => h).
      - intros x X dd u _ Hx. cbn [last_of] in X. rewrite OC in X. injection X as <-. rewrite last_app1. exact Hx. }
    cbv zeta in H. destruct (String.eqb f "url") eqn:FU.
    { destruct (read_quoted_url (under o d args)) as [i|] eqn:R; [|discriminate]. injection H as <-.
      unfold read_quoted_url in R. destruct (skip (under o d args)) as [|[t x] r]; [discriminate|].
      destruct t as [[]| |]; try discriminate. destruct (skip r); [|discriminate]. injection R as <-.
      apply single_good; try reflexivity; [exact D|].
      intros v X y. cbn [first_of] in X. rewrite OC in X. injection X as <-. exact (fun h => h). }
    rewrite orb_false_r in S1. apply negb_true_iff in S1.
    destruct (String.eqb f "var") eqn:FV.
    { apply String.eqb_eq in FV. subst f. unfold read_var in H.
      destruct (skip_split (under o d args)) as (pre & E1 & _).
      destruct (skip (under o d args)) as [|[t x] r]; [discriminate|]. destruct t as [[]| |]; try discriminate.
      destruct (starts_dashes n); [|discriminate]. destruct (read_fallback (deep d) r) as [fb|] eqn:RF; [|discriminate].
      injection H as <-. unfold all_tokens. cbn [flat_map]. rewrite app_nil_r, tokens_eq.
      pose proof (var_apart "var" n [] fb S1) as VA. cbn [flat_map List.app] in VA |- *.
      assert (FBA : forall l, fb = Some l -> all_apart (toks l) = true).
      { apply (read_fallback_apart (deep d) r fb); [|exact RF]. intros pre2 r2 l2 ER C2.
        apply (TA (pre ++ (Leaf (TIdent n), x) :: pre2)%list r2 l2); [|exact C2]. rewrite E1, ER. rewrite <- List.app_assoc. reflexivity. }
      specialize (VA FBA).
      assert (E : kept m (TFunction "var" :: TIdent n :: fallback_tokens m fb ++ [TClose Paren])%list
                  = ((TFunction "var" :: TIdent n :: kept m (fallback_tokens m fb)) ++ [TClose Paren])%list).
      { rewrite !kept_plain by (apply live_other; reflexivity). rewrite kept_app, (kept_plain (TClose Paren)) by (apply live_other; reflexivity).
        rewrite kept_nil. reflexivity. }
      rewrite E in VA |- *. apply CL. exact VA. }
    destruct (String.eqb f "env") eqn:FE.
    { apply String.eqb_eq in FE. subst f. unfold read_env in H.
      destruct (skip_split (under o d args)) as (pre & E1 & _).
      destruct (skip (under o d args)) as [|[t x] r]; [discriminate|]. destruct t as [[]| |]; try discriminate.
      destruct (read_indices (List.length r) r) as [ix r'] eqn:RI.
      destruct (read_fallback (deep d) r') as [fb|] eqn:RF; [|discriminate].
      injection H as <-. unfold all_tokens. cbn [flat_map]. rewrite app_nil_r, tokens_eq.
      assert (SUF : exists p, r = (p ++ r')%list).
      { exact (indices_suffix _ _ _ _ RI). }
      destruct SUF as [p Ep].
      assert (FBA : forall l, fb = Some l -> all_apart (toks l) = true).
      { apply (read_fallback_apart (deep d) r' fb); [|exact RF]. intros pre2 r2 l2 ER C2.
        apply (TA (pre ++ (Leaf (TIdent n), x) :: p ++ pre2)%list r2 l2); [|exact C2].
        rewrite E1, Ep, ER. rewrite <- !List.app_assoc. cbn [List.app]. rewrite <- List.app_assoc. reflexivity. }
      pose proof (var_apart "env" n ix fb S1 FBA) as VA.
      assert (E : kept m ([TFunction "env"; TIdent n] ++ flat_map (fun x => [TSpace " "; TNumber x]) ix ++ fallback_tokens m fb ++ [TClose Paren])%list
                  = ((TFunction "env" :: kept m (TIdent n :: flat_map (fun x => [TSpace " "; TNumber x]) ix ++ fallback_tokens m fb)) ++ [TClose Paren])%list).
      { cbn [List.app]. rewrite !kept_plain by (apply live_other; reflexivity). rewrite !kept_app.
        rewrite (kept_plain (TClose Paren)) by (apply live_other; reflexivity).
        rewrite kept_nil. cbn [List.app]. rewrite <- !List.app_assoc. reflexivity. }
      rewrite E in VA |- *. apply CL. exact VA. }
    destruct (deep d); [discriminate|].
    destruct (concat_some (map snd (under o d args))) as [x|] eqn:C; [|discriminate]. injection H as <-.
    unfold all_tokens. cbn [flat_map]. rewrite app_nil_r, tokens_eq.
    pose proof (trim_apart x (TA [] (under o d args) x eq_refl C)) as TX.
    assert (E : kept m (TFunction f :: all_tokens m (trim x) ++ [TClose Paren])%list
                = ((TFunction f :: toks (trim x)) ++ [TClose Paren])%list).
    { rewrite kept_plain by (apply live_other; reflexivity). rewrite kept_app, (kept_plain (TClose Paren)) by (apply live_other; reflexivity).
      rewrite kept_nil. reflexivity. }
    rewrite E. apply CL. cbn [List.app]. apply function_apart; [exact S1|apply close_apart; exact TX|].
    destruct (toks (trim x)); discriminate.
Qed.

Theorem list_apart : forall d src l, spaced_value o m src = true -> read_list o d src = Some l ->
  all_apart (toks l) = true.
Proof.
  intros d src l S H. unfold read_list in H.
  destruct (concat_some (map (read_tree o d) src)) as [x|] eqn:C; [|discriminate]. injection H as <-.
  apply trim_apart. unfold spaced_value in S. apply andb_true_iff in S. destruct S as [S1 S2].
  pose (ps := map (fun t => (t, read_tree o d t)) src).
  assert (E1 : map fst ps = src). { unfold ps. rewrite map_map. apply map_id. }
  apply (trees_apart ps); [|rewrite E1; exact S2|rewrite E1; exact S1|unfold ps; rewrite map_map; exact C].
  unfold ps. apply Forall_map. apply Forall_forall. intros t _ St y E. cbn [fst snd] in *. eapply tree_good; eassumption.
Qed.

Theorem spaced_kept : fine_readers o -> forall d src l r, forallb fine_tree src = true -> spaced_value o m src = true ->
  read_list o d src = Some l -> stops r = true ->
  exists k k1 k0, Lexes (print m l ++ r) k r /\ squeeze k = squeeze k1 /\ KeptAll o src k0 /\ Trimmed k0 k1.
Proof.
  intros FR d src l r F S H St. eapply value_kept; try eassumption. eapply list_apart; eassumption.
Qed.
End Spaced.
