(** Items are printed as their tokens; reading keeps the tokens of the source. *)
From Coq Require Import List Bool String Ascii PeanoNat NArith ZArith QArith Lia.
From Verif Require Import IdentModel IdentSpec IdentProofs NumTextModel NumTextSpec TokSpec TokModel TokListSpec TokNumProofs TokProofs TokListProofs.
Import ListNotations.
Local Open Scope bool_scope.
Local Open Scope string_scope.
Local Open Scope nat_scope.

(** ** Induction *)

Section ItemInd.
Variable P : item -> Prop.
Definition Opt (fb : option (list item)) : Prop := match fb with None => True | Some l => Forall P l end.
Hypothesis HTok : forall t, P (Tok t).
Hypothesis HTyped : forall ts, P (Typed ts).
Hypothesis HUrl : forall u, P (Url u).
Hypothesis HDashed : forall n, P (Dashed n).
Hypothesis HVar : forall n fb, Opt fb -> P (Var n fb).
Hypothesis HEnv : forall n ix fb, Opt fb -> P (Env n ix fb).
Hypothesis HFunc : forall n l, Forall P l -> P (Func n l).
Fixpoint item_ind2 (i : item) : P i :=
  let all := fix go (l : list item) : Forall P l :=
    match l with [] => Forall_nil P | x :: r => Forall_cons x (item_ind2 x) (go r) end in
  let opt (fb : option (list item)) : Opt fb :=
    match fb with None => I | Some l => all l end in
  match i with
  | Tok t => HTok t
  | Typed ts => HTyped ts
  | Url u => HUrl u
  | Dashed n => HDashed n
  | Var n fb => HVar n fb (opt fb)
  | Env n ix fb => HEnv n ix fb (opt fb)
  | Func n l => HFunc n l (all l)
  end.
End ItemInd.

Section TreeInd.
Variable P : tree -> Prop.
Hypothesis HLeaf : forall t, P (Leaf t).
Hypothesis HBlock : forall b l, Forall P l -> P (Block b l).
Hypothesis HCall : forall f l, Forall P l -> P (Call f l).
Fixpoint tree_ind2 (t : tree) : P t :=
  let all := fix go (l : list tree) : Forall P l :=
    match l with [] => Forall_nil P | x :: r => Forall_cons x (tree_ind2 x) (go r) end in
  match t with
  | Leaf t => HLeaf t
  | Block b l => HBlock b l (all l)
  | Call f l => HCall f l (all l)
  end.
End TreeInd.

(** ** Unfolding *)

Definition fallback_text (m : bool) (fb : option (list item)) : string :=
  match fb with
  | None => ""
  | Some l => "," ++ (if starts_space l || m then "" else " ") ++ print m l
  end.
Definition fallback_tokens (m : bool) (fb : option (list item)) : list token :=
  match fb with
  | None => []
  | Some l => (TComma :: fallback_space m l ++ all_tokens m l)%list
  end.

Lemma list_text_print : forall m l,
  (fix go (l : list item) : string := match l with [] => "" | i :: r => item_text m i ++ go r end) l = print m l.
Proof. intros m. induction l as [|i l IH]; [reflexivity|]. rewrite IH. reflexivity. Qed.
Lemma list_tokens_all : forall m l,
  (fix go (l : list item) : list token := match l with [] => [] | i :: r => (tokens_of m i ++ go r)%list end) l = all_tokens m l.
Proof. intros m. induction l as [|i l IH]; [reflexivity|]. rewrite IH. reflexivity. Qed.

Lemma item_text_eq : forall m i, item_text m i =
  match i with
  | Tok t => item_token m t
  | Typed ts => cat (map (short_text m) ts)
  | Url u => url_text m u
  | Dashed n => ser_ident n
  | Var n fb => "var(" ++ ser_ident n ++ fallback_text m fb ++ ")"
  | Env n ix fb => "env(" ++ ser_ident n ++ cat (map (fun x => " " ++ short_number x) ix) ++ fallback_text m fb ++ ")"
  | Func n args => ser_ident n ++ "(" ++ print m args ++ ")"
  end.
Proof.
  intros m i. destruct i as [t|ts|u|n|n fb|n ix fb|n l]; try reflexivity.
  all: try (destruct fb as [l|]; [|reflexivity]); cbn [item_text fallback_text]; rewrite list_text_print; reflexivity.
Qed.
Lemma tokens_eq : forall m i, tokens_of m i =
  match i with
  | Tok t => [t]
  | Typed ts => ts
  | Url u => [TUrl u]
  | Dashed n => [TIdent n]
  | Var n fb => ([TFunction "var"; TIdent n] ++ fallback_tokens m fb ++ [TClose Paren])%list
  | Env n ix fb => ([TFunction "env"; TIdent n] ++ flat_map (fun x => [TSpace " "; TNumber x]) ix ++ fallback_tokens m fb
                     ++ [TClose Paren])%list
  | Func n args => (TFunction n :: all_tokens m args ++ [TClose Paren])%list
  end.
Proof.
  intros m i. destruct i as [t|ts|u|n|n fb|n ix fb|n l]; try reflexivity.
  all: try (destruct fb as [l|]; [|reflexivity]); cbn [tokens_of fallback_tokens]; rewrite list_tokens_all; reflexivity.
Qed.

(** ** Items as pieces *)

(** [s] is the tokens [ts], printed one after the other. *)
Definition Texts (m : bool) (ts : list token) (s : string) : Prop :=
  exists ps, map fst ps = ts /\ cat (map snd ps) = s /\ Forall (fun p => prints m (fst p) (snd p)) ps.

Lemma cat_app : forall a b, cat (a ++ b)%list = cat a ++ cat b.
Proof. induction a as [|x a IH]; intros; [reflexivity|]. cbn [List.app cat fold_right]. fold (cat (a ++ b)%list). rewrite IH.
  symmetry. apply app_assoc_s. Qed.

Lemma texts_nil : forall m, Texts m [] "".
Proof. intros. exists []. repeat split. constructor. Qed.
Lemma texts_one : forall m t s, prints m t s -> Texts m [t] s.
Proof. intros m t s P. exists [(t, s)]. repeat split; [cbn; apply app_empty_r|]. constructor; [exact P|constructor]. Qed.
Lemma texts_app : forall m a b s t, Texts m a s -> Texts m b t -> Texts m (a ++ b)%list (s ++ t).
Proof.
  intros m a b s t (p & P1 & P2 & P3) (q & Q1 & Q2 & Q3). exists (p ++ q)%list.
  rewrite !map_app, cat_app, P1, P2, Q1, Q2. repeat split. apply Forall_app. split; assumption.
Qed.
Lemma texts_cons : forall m t b s x, prints m t s -> Texts m b x -> Texts m (t :: b) (s ++ x).
Proof. intros. change (t :: b) with ([t] ++ b)%list. apply texts_app; [apply texts_one; assumption|assumption]. Qed.

Lemma prints_token : forall m t, prints m t (token_text m t).
Proof. intros. left. reflexivity. Qed.
Lemma prints_item : forall m t, prints m t (item_token m t).
Proof. intros m t. destruct t; try (left; reflexivity); right; left; reflexivity. Qed.
Lemma prints_url : forall m u, prints m (TUrl u) (url_text m u).
Proof.
  intros m u. unfold url_text.
  destruct m; [|right; right; exists u; split; reflexivity].
  destruct (_ && _); [right; right; exists u; split; reflexivity|left; reflexivity].
Qed.

Lemma texts_list : forall m l, Forall (fun i => Texts m (tokens_of m i) (item_text m i)) l ->
  Texts m (all_tokens m l) (print m l).
Proof.
  intros m l H. induction H as [|i l H1 H2 IH]; [apply texts_nil|].
  cbn [all_tokens flat_map]. unfold print. cbn [map cat fold_right]. apply texts_app; assumption.
Qed.

Lemma texts_fallback : forall m fb, Opt (fun i => Texts m (tokens_of m i) (item_text m i)) fb ->
  Texts m (fallback_tokens m fb) (fallback_text m fb).
Proof.
  intros m [l|] H; [|apply texts_nil]. cbn [fallback_tokens fallback_text].
  apply texts_cons; [apply (prints_token m TComma)|].
  apply texts_app; [|apply texts_list; exact H].
  unfold fallback_space. destruct (starts_space l || m) eqn:E; [apply texts_nil|].
  apply orb_false_iff in E. destruct E as [_ E]. subst m. apply texts_one. left. reflexivity.
Qed.

Lemma texts_close : forall m, Texts m [TClose Paren] ")".
Proof. intros. apply texts_one. left. reflexivity. Qed.

Theorem texts_item : forall m i, Texts m (tokens_of m i) (item_text m i).
Proof.
  intros m. induction i as [t|ts|u|n|n fb IH|n ix fb IH|n l IH] using item_ind2; rewrite tokens_eq, item_text_eq.
  - apply texts_one, prints_item.
  - induction ts as [|t ts IH]; [apply texts_nil|]. cbn [map cat fold_right]. apply texts_cons; [|exact IH].
    right. left. reflexivity.
  - apply texts_one, prints_url.
  - apply texts_one. left. reflexivity.
  - change ("var(" ++ ser_ident n ++ fallback_text m fb ++ ")")
      with ((ser_ident "var" ++ "(") ++ ser_ident n ++ fallback_text m fb ++ ")").
    cbn [List.app]. apply texts_cons; [left; reflexivity|]. apply texts_cons; [left; reflexivity|].
    apply texts_app; [apply texts_fallback; exact IH|apply texts_close].
  - change ("env(" ++ ser_ident n ++ cat (map (fun x => " " ++ short_number x) ix) ++ fallback_text m fb ++ ")")
      with ((ser_ident "env" ++ "(") ++ ser_ident n ++ cat (map (fun x => " " ++ short_number x) ix) ++ fallback_text m fb ++ ")").
    cbn [List.app]. apply texts_cons; [left; reflexivity|]. apply texts_cons; [left; reflexivity|].
    apply texts_app; [|apply texts_app; [apply texts_fallback; exact IH|apply texts_close]].
    induction ix as [|x ix IHx]; [apply texts_nil|]. cbn [flat_map map cat fold_right].
    apply (texts_app m [TSpace " "; TNumber x] _ (" " ++ short_number x)); [|exact IHx].
    apply texts_cons; [left; destruct m; reflexivity|]. apply texts_one. right. left. reflexivity.
  - change (TFunction n :: all_tokens m l ++ [TClose Paren])%list with ([TFunction n] ++ all_tokens m l ++ [TClose Paren])%list.
    rewrite <- app_assoc_s. apply texts_app; [apply texts_one; left; reflexivity|].
    apply texts_app; [apply texts_list; exact IH|apply texts_close].
Qed.

Theorem texts_print : forall m l, Texts m (all_tokens m l) (print m l).
Proof. intros m l. apply texts_list. apply Forall_forall. intros. apply texts_item. Qed.

(** ** Printing *)

Lemma texts_lex : forall m ts s r, Texts m ts s -> forallb fine ts = true ->
  all_apart (kept m ts) = true -> stops r = true ->
  exists k k', Lexes (s ++ r) k r /\ MeansAll ts k' /\ squeeze k = squeeze k'.
Proof.
  intros m ts s r (ps & P1 & P2 & P3) F A S.
  assert (OK : Forall (piece_ok m) ps).
  { rewrite forallb_forall in F. rewrite Forall_forall in *. intros p I. split; [apply P3; exact I|].
    apply F. rewrite <- P1. apply in_map. exact I. }
  rewrite <- P1 in A. destruct (lex_list m ps r OK A S) as (_ & k & k' & H). rewrite P1, P2 in H. exists k, k'. exact H.
Qed.

Theorem print_lexes : forall m l r, forallb fine (all_tokens m l) = true ->
  all_apart (kept m (all_tokens m l)) = true -> stops r = true ->
  exists k k', Lexes (print m l ++ r) k r /\ MeansAll (all_tokens m l) k' /\ squeeze k = squeeze k'.
Proof. intros. eapply texts_lex; try eassumption. apply texts_print. Qed.

Theorem raw_texts : forall m l s, print_raw m l = Some s -> Texts m (all_tokens m l) s.
Proof.
  intros m. induction l as [|i l IH]; intros s H.
  - cbn in H. injection H as <-. apply texts_nil.
  - destruct i; try discriminate. cbn [print_raw] in H. destruct (print_raw m l) as [x|] eqn:E; [|discriminate].
    injection H as <-. cbn [all_tokens flat_map tokens_of List.app]. apply texts_cons; [apply prints_token|apply IH; reflexivity].
Qed.

Theorem raw_lexes : forall m l s r, print_raw m l = Some s -> forallb fine (all_tokens m l) = true ->
  all_apart (kept m (all_tokens m l)) = true -> stops r = true ->
  exists k k', Lexes (s ++ r) k r /\ MeansAll (all_tokens m l) k' /\ squeeze k = squeeze k'.
Proof. intros. eapply texts_lex; try eassumption. apply raw_texts. assumption. Qed.

(** ** Reading *)

Lemma means_app : forall a b k, MeansAll (a ++ b)%list k ->
  exists k1 k2, k = (k1 ++ k2)%list /\ MeansAll a k1 /\ MeansAll b k2.
Proof.
  induction a as [|t a IH]; intros b k H; [exists [], k; repeat split; [constructor|exact H]|].
  cbn [List.app] in H. inversion H as [|t' ts k1 ks M MA]; subst. destruct (IH _ _ MA) as (x & y & -> & X & Y).
  exists (k1 ++ x)%list, y. rewrite <- List.app_assoc. repeat split; [|exact Y]. constructor; assumption.
Qed.
Lemma means_app2 : forall a b k1 k2, MeansAll a k1 -> MeansAll b k2 -> MeansAll (a ++ b)%list (k1 ++ k2)%list.
Proof.
  intros a b k1 k2 H K. induction H; [exact K|]. cbn [List.app]. rewrite <- List.app_assoc. constructor; assumption.
Qed.
Lemma means_plain : forall t k, Means t k -> match t with TUrl _ => false | _ => true end = true -> k = reading t.
Proof. intros t k H E. inversion H; subst; [reflexivity|discriminate]. Qed.
Lemma means_cons : forall t ts k, MeansAll (t :: ts) k -> match t with TUrl _ => false | _ => true end = true ->
  exists ks, k = (reading t ++ ks)%list /\ MeansAll ts ks.
Proof.
  intros t ts k H E. inversion H as [|t' ts' k1 ks M MA]; subst. apply means_plain in M; [|exact E]. subst k1.
  exists ks. split; [reflexivity|exact MA].
Qed.
Lemma means_one : forall t k, MeansAll [t] k -> Means t k.
Proof.
  intros t k H. inversion H as [|t' ts' k1 ks M MA]; subst. inversion MA; subst. rewrite app_nil_r. exact M.
Qed.
Lemma means_nil : forall k, MeansAll [] k -> k = [].
Proof. intros k H. inversion H. reflexivity. Qed.

Section Reading.
Variable o : readers.
Variable m : bool.

(** Items that stand for a list of trees. *)
Definition Stands (src : list tree) (l : list item) : Prop :=
  forall k, MeansAll (all_tokens m l) k -> KeptAll o src k.
Definition Stands1 (t : tree) (l : list item) : Prop :=
  forall k, MeansAll (all_tokens m l) k -> Kept o t k.

Lemma all_tokens_app : forall a b, all_tokens m (a ++ b)%list = (all_tokens m a ++ all_tokens m b)%list.
Proof. intros. unfold all_tokens. apply flat_map_app. Qed.

Lemma space_tokens : forall i, is_space i = true -> exists w, i = Tok (TSpace w).
Proof. intros [[]|ts|u|n|n fb|n ix fb|n l] H; try discriminate. eexists. reflexivity. Qed.

Lemma space_first : forall i l k, is_space i = true -> MeansAll (all_tokens m l) k ->
  MeansAll (all_tokens m (i :: l)) (KSpace :: k).
Proof.
  intros i l k H M. destruct (space_tokens i H) as [w ->]. cbn [all_tokens flat_map tokens_of List.app].
  change (KSpace :: k) with (reading (TSpace w) ++ k)%list. constructor; [constructor|exact M].
Qed.
Lemma space_last : forall i l k, is_space i = true -> MeansAll (all_tokens m l) k ->
  MeansAll (all_tokens m (l ++ [i])%list) (k ++ [KSpace])%list.
Proof.
  intros i l k H M. destruct (space_tokens i H) as [w ->]. rewrite all_tokens_app. apply means_app2; [exact M|].
  change [KSpace] with (reading (TSpace w) ++ [])%list. constructor; constructor.
Qed.

Lemma removelast_last : forall (l : list item) (d : item), l <> [] -> l = (removelast l ++ [List.last l d])%list.
Proof. intros. apply app_removelast_last. assumption. Qed.

Lemma trim_means : forall l k, MeansAll (all_tokens m (trim l)) k ->
  exists k0, MeansAll (all_tokens m l) k0 /\ Trimmed k0 k.
Proof.
  intros l k H. destruct l as [|a [|b l]];
    try (exists k; split; [exact H|]; exists [], []; repeat split; [constructor|constructor|cbn; now rewrite app_nil_r]).
  assert (LE : List.last (a :: b :: l) a = List.last (b :: l) a) by reflexivity.
  unfold trim in H. cbn [List.tl] in H. rewrite LE in H. clear LE.
  assert (X : (b :: l) = (removelast (b :: l) ++ [List.last (b :: l) a])%list) by (apply removelast_last; discriminate).
  unfold drop_last in H.
  destruct (is_space a) eqn:A; destruct (is_space (List.last (b :: l) a)) eqn:B.
  - exists (KSpace :: k ++ [KSpace])%list. split.
    + apply space_first; [exact A|]. rewrite X. apply space_last; assumption.
    + exists [KSpace], [KSpace]. repeat split; repeat constructor.
  - exists (KSpace :: k). split; [apply space_first; assumption|].
    exists [KSpace], []. repeat split; repeat constructor. cbn. now rewrite app_nil_r.
  - exists (k ++ [KSpace])%list. split.
    + change (a :: b :: l) with ([a] ++ (b :: l))%list. rewrite X. rewrite List.app_assoc.
      apply space_last; [exact B|]. exact H.
    + exists [], [KSpace]. repeat split; repeat constructor.
  - exists k. split; [exact H|]. exists [], []. repeat split; [constructor|constructor|cbn; now rewrite app_nil_r].
Qed.

(** Arguments with what they were read as. *)
Definition Parsed (p : tree * option (list item)) : Prop := forall l, snd p = Some l -> Stands1 (fst p) l.

Lemma concat_stands : forall ps l, Forall Parsed ps -> concat_some (map snd ps) = Some l -> Stands (map fst ps) l.
Proof.
  intros ps. induction ps as [|[t x] ps IH]; intros l F H k M.
  - cbn in H. injection H as <-. cbn in M. apply means_nil in M. subst. constructor.
  - cbn [map snd concat_some] in H. destruct x as [a|]; [|discriminate].
    destruct (concat_some (map snd ps)) as [b|] eqn:E; [|discriminate]. injection H as <-.
    rewrite all_tokens_app in M. apply means_app in M. destruct M as (k1 & k2 & -> & M1 & M2).
    cbn [map fst]. constructor.
    + apply (Forall_inv F a eq_refl). exact M1.
    + apply (IH b (Forall_inv_tail F) eq_refl). exact M2.
Qed.

Lemma skip_split : forall (ps : list (tree * option (list item))), exists pre,
  ps = (pre ++ skip ps)%list /\ forallb between_tokens (map fst pre) = true.
Proof.
  induction ps as [|[t x] ps IH]; [exists []; split; reflexivity|].
  cbn [skip]. destruct (skipped t) eqn:E; [|exists []; split; reflexivity].
  destruct IH as (pre & E1 & E2). exists ((t, x) :: pre). cbn [List.app map fst forallb]. split; [f_equal; exact E1|].
  rewrite E2. change (between_tokens t) with (skipped t). rewrite E. reflexivity.
Qed.

Lemma parsed_tail : forall pre ps, Forall Parsed (pre ++ ps)%list -> Forall Parsed ps.
Proof. intros pre ps H. apply Forall_app in H. apply H. Qed.

Lemma space_or : forall l, MeansAll (fallback_space m l) (match fallback_space m l with [] => [] | _ => [KSpace] end).
Proof.
  intros l. unfold fallback_space. destruct (starts_space l || m); [constructor|].
  change [KSpace] with (reading (TSpace " ") ++ [])%list. constructor; constructor.
Qed.

Lemma fallback_kept : forall deep ps fb k, Forall Parsed ps -> read_fallback deep ps = Some fb ->
  MeansAll (fallback_tokens m fb) k -> KeptFallback o (map fst ps) k.
Proof.
  intros deep ps fb k F H M. unfold read_fallback in H.
  destruct (skip_split ps) as (pre & E1 & E2). destruct (skip ps) as [|[t x] r] eqn:S.
  - injection H as <-. cbn in M. apply means_nil in M. subst k. rewrite app_nil_r in E1. rewrite E1. apply KNone. exact E2.
  - destruct t as [[]| |]; try discriminate. destruct deep; [discriminate|].
    destruct (concat_some (map snd r)) as [l|] eqn:C; [|discriminate]. injection H as <-.
    cbn [fallback_tokens] in M. apply means_cons in M; [|reflexivity]. destruct M as (k1 & -> & M).
    apply means_app in M. destruct M as (ks & k2 & -> & M1 & M2).
    destruct (trim_means l k2 M2) as (k0 & K0 & T).
    rewrite E1. rewrite map_app. cbn [map fst reading List.app].
    apply (KFallback o (map fst pre) (map fst r) ks k0 k2); [exact E2| | |exact T].
    + unfold fallback_space in M1. destruct (starts_space (trim l) || m).
      * apply means_nil in M1. subst. constructor.
      * apply means_cons in M1; [|reflexivity]. destruct M1 as (z & -> & M1). apply means_nil in M1. subst. repeat constructor.
    + apply (concat_stands r l); [|exact C|exact K0]. rewrite E1 in F. apply parsed_tail in F. apply Forall_inv_tail in F. exact F.
Qed.

Lemma read_indices_split : forall fuel (ps : list (tree * option (list item))) ix r,
  read_indices fuel ps = (ix, r) -> Forall Parsed ps ->
  Forall Parsed r /\
  forall k, KeptFallback o (map fst r) k ->
  KeptFallback o (map fst ps) (flat_map (fun x => [KSpace; KNumber (number_of x)]) ix ++ k)%list.
Proof.
  induction fuel as [|f IH]; intros ps ix r H F; cbn [read_indices] in H.
  - injection H as <- <-. split; [exact F|]. intros k K. exact K.
  - destruct (skip_split ps) as (pre & E1 & E2). destruct (skip ps) as [|[t x] q] eqn:S.
    + injection H as <- <-. split; [exact F|]. intros k K. exact K.
    + destruct t as [[]| |]; try (injection H as <- <-; split; [exact F|]; intros k K; exact K).
      destruct (n_int n) eqn:N; [|injection H as <- <-; split; [exact F|]; intros k K; exact K].
      destruct (read_indices f q) as [xs r'] eqn:R. injection H as <- <-.
      assert (Fq : Forall Parsed q). { rewrite E1 in F. apply parsed_tail in F. apply Forall_inv_tail in F. exact F. }
      destruct (IH q xs r' R Fq) as [F' K]. split; [exact F'|]. intros k K'.
      rewrite E1, map_app. cbn [map fst flat_map List.app].
      apply (KIndex o (map fst pre)); [exact E2|exact N|]. apply K. exact K'.
Qed.

Definition under (d : nat) (body : list tree) : list (tree * option (list item)) :=
  match d with
  | 0 => map (fun x => (x, None)) body
  | S d' => map (fun x => (x, read_tree o d' x)) body
  end.
Lemma under_fst : forall d body, map fst (under d body) = body.
Proof.
  intros d body. unfold under. destruct d; rewrite map_map; cbn [fst]; apply map_id.
Qed.
Lemma under_parsed : forall d body, Forall (fun t => forall d l, read_tree o d t = Some l -> Stands1 t l) body ->
  Forall Parsed (under d body).
Proof.
  intros d body F. unfold under. destruct d; apply Forall_map; [apply Forall_forall; intros x I l H; discriminate H|].
  eapply Forall_impl; [|exact F]. intros t H l E. apply (H d l E).
Qed.

Definition deep (d : nat) : bool := match d with 0 => true | _ => false end.

Lemma under_fix : forall d body,
  match d with
  | 0 => map (fun x => (x, None)) body
  | S d' => (fix go (l : list tree) :=
               match l with [] => [] | x :: r => (x, read_tree o d' x) :: go r end) body
  end = under d body.
Proof.
  intros [|d] body; [reflexivity|]. unfold under. induction body as [|x r IH]; [reflexivity|]. cbn [map]. rewrite <- IH. reflexivity.
Qed.

Lemma read_tree_eq : forall d t, read_tree o d t =
  match t with
  | Leaf (THash h) | Leaf (TIdHash h) =>
      match o_hash o h with Some ts => Some [Typed ts] | None => Some [Tok (THash h)] end
  | Leaf (TUrl u) => Some [Url u]
  | Leaf (TIdent n) => if starts_dashes n then Some [Dashed n] else Some [Tok (TIdent n)]
  | Leaf (TDimension n u) =>
      match o_dimension o n u with Some ts => Some [Typed ts] | None => Some [Tok (TDimension n u)] end
  | Leaf (TClose _) | Leaf (TOpen _) | Leaf (TFunction _) => None
  | Leaf t => Some [Tok t]
  | Block b body =>
      if deep d then None
      else match concat_some (map snd (under d body)) with
           | Some l => Some (Tok (TOpen b) :: l ++ [Tok (TClose b)])%list
           | None => None
           end
  | Call f args =>
      match o_color o f args with
      | Some ts => Some [Typed ts]
      | None =>
          let one (i : option item) := match i with Some i => Some [i] | None => None end in
          if String.eqb f "url" then one (read_quoted_url (under d args))
          else if String.eqb f "var" then one (read_var (deep d) (under d args))
          else if String.eqb f "env" then one (read_env (deep d) (under d args))
          else if deep d then None
          else match concat_some (map snd (under d args)) with
               | Some l => Some [Func f (trim l)]
               | None => None
               end
      end
  end.
Proof.
  intros d t. destruct t as [t|b body|f args]; [reflexivity| |].
  - rewrite <- under_fix. destruct d; reflexivity.
  - rewrite <- under_fix. destruct d; reflexivity.
Qed.

Lemma leaf_stands : forall t t', (forall k, Means t k -> Kept o (Leaf t') k) ->
  forall k, MeansAll [t] k -> Kept o (Leaf t') k.
Proof. intros t t' H k M. apply H. apply means_one. exact M. Qed.

Theorem tree_stands : forall t d l, read_tree o d t = Some l -> Stands1 t l.
Proof.
  intros t. induction t as [t|b body IH|f args IH] using tree_ind2; intros d l H k M.
  - rewrite read_tree_eq in H.
    destruct t as [n|n|n|n|x|x|n|c|n|n|n v|w|c| | | |p| | |b|b]; try discriminate;
      try (injection H as <-; cbn [all_tokens flat_map tokens_of List.app] in M; apply means_one in M; apply KLeaf; exact M).
    + destruct (starts_dashes n); injection H as <-; cbn [all_tokens flat_map tokens_of List.app] in M; apply means_one in M;
        apply KLeaf; exact M.
    + destruct (o_hash o n) as [ts|] eqn:E; injection H as <-; cbn [all_tokens flat_map tokens_of List.app] in M.
      * rewrite app_nil_r in M. eapply KHex; eassumption.
      * apply means_one in M. apply KLeaf. exact M.
    + destruct (o_hash o n) as [ts|] eqn:E; injection H as <-; cbn [all_tokens flat_map tokens_of List.app] in M.
      * rewrite app_nil_r in M. eapply KIdHex; eassumption.
      * apply means_one in M. apply means_plain in M; [|reflexivity]. subst k. apply KLeaf. exact (MToken (TIdHash n)).
    + destruct (o_dimension o n v) as [ts|] eqn:E; injection H as <-; cbn [all_tokens flat_map tokens_of List.app] in M.
      * rewrite app_nil_r in M. eapply KDim; eassumption.
      * apply means_one in M. apply KLeaf. exact M.
  - rewrite read_tree_eq in H. destruct (deep d); [discriminate|].
    destruct (concat_some (map snd (under d body))) as [x|] eqn:C; [|discriminate]. injection H as <-.
    change (Tok (TOpen b) :: x ++ [Tok (TClose b)])%list with ([Tok (TOpen b)] ++ x ++ [Tok (TClose b)])%list in M.
    rewrite !all_tokens_app in M. cbn [all_tokens flat_map tokens_of List.app] in M.
    apply means_cons in M; [|reflexivity]. destruct M as (k1 & -> & M). apply means_app in M.
    destruct M as (k2 & k3 & -> & M2 & M3). apply means_one in M3. apply means_plain in M3; [|reflexivity]. subst k3.
    cbn [reading List.app]. apply KBlock.
    pose proof (concat_stands (under d body) x (under_parsed d body IH) C k2 M2) as K. rewrite under_fst in K. exact K.
  - rewrite read_tree_eq in H. pose proof (under_parsed d args IH) as P.
    destruct (o_color o f args) as [ts|] eqn:OC.
    { injection H as <-. cbn [all_tokens flat_map tokens_of List.app] in M. rewrite app_nil_r in M.
      eapply KColor; eassumption. }
    cbv zeta in H. destruct (String.eqb f "url") eqn:FU.
    { apply String.eqb_eq in FU. subst f. unfold read_quoted_url in H.
      destruct (skip_split (under d args)) as (pre & E1 & E2).
      destruct (skip (under d args)) as [|[t x] r] eqn:S; [discriminate|].
      destruct t as [[]| |]; try discriminate.
      destruct (skip_split r) as (pre2 & G1 & G2). destruct (skip r) as [|] eqn:S2; [|discriminate].
      injection H as <-. cbn [all_tokens flat_map tokens_of List.app] in M. apply means_one in M.
      assert (EA : args = (map fst pre ++ Leaf (TString s) :: map fst pre2)%list).
      { rewrite <- (under_fst d args). rewrite E1, map_app. cbn [map fst]. rewrite app_nil_r in G1. rewrite G1 at 1. reflexivity. }
      rewrite EA. apply KQuotedUrl; assumption. }
    destruct (String.eqb f "var") eqn:FV.
    { apply String.eqb_eq in FV. subst f. unfold read_var in H.
      destruct (skip_split (under d args)) as (pre & E1 & E2).
      destruct (skip (under d args)) as [|[t x] r] eqn:S; [discriminate|].
      destruct t as [[]| |]; try discriminate. destruct (starts_dashes n); [|discriminate].
      destruct (read_fallback (deep d) r) as [fb|] eqn:RF; [|discriminate]. injection H as <-.
      assert (EA : args = (map fst pre ++ Leaf (TIdent n) :: map fst r)%list).
      { rewrite <- (under_fst d args). rewrite E1, map_app. reflexivity. }
      unfold all_tokens in M. cbn [flat_map] in M. rewrite app_nil_r, tokens_eq in M. cbn [List.app] in M.
      apply means_cons in M; [|reflexivity]. destruct M as (k1 & -> & M).
      apply means_cons in M; [|reflexivity]. destruct M as (k2 & -> & M).
      apply means_app in M. destruct M as (k3 & k4 & -> & M3 & M4). apply means_one in M4.
      apply means_plain in M4; [|reflexivity]. subst k4. cbn [reading List.app]. rewrite EA.
      apply KVar; [left; reflexivity|exact E2|]. eapply fallback_kept; [|exact RF|exact M3].
      rewrite E1 in P. apply parsed_tail in P. apply Forall_inv_tail in P. exact P. }
    destruct (String.eqb f "env") eqn:FE.
    { apply String.eqb_eq in FE. subst f. unfold read_env in H.
      destruct (skip_split (under d args)) as (pre & E1 & E2).
      destruct (skip (under d args)) as [|[t x] r] eqn:S; [discriminate|].
      destruct t as [[]| |]; try discriminate.
      destruct (read_indices (List.length r) r) as [ix r'] eqn:RI.
      destruct (read_fallback (deep d) r') as [fb|] eqn:RF; [|discriminate]. injection H as <-.
      assert (EA : args = (map fst pre ++ Leaf (TIdent n) :: map fst r)%list).
      { rewrite <- (under_fst d args). rewrite E1, map_app. reflexivity. }
      assert (Pr : Forall Parsed r). { rewrite E1 in P. apply parsed_tail in P. apply Forall_inv_tail in P. exact P. }
      destruct (read_indices_split _ _ _ _ RI Pr) as [Pr' KI].
      unfold all_tokens in M. cbn [flat_map] in M. rewrite app_nil_r, tokens_eq in M. cbn [List.app] in M.
      apply means_cons in M; [|reflexivity]. destruct M as (k1 & -> & M).
      apply means_cons in M; [|reflexivity]. destruct M as (k2 & -> & M).
      apply means_app in M. destruct M as (ki & k3' & -> & MI & M).
      apply means_app in M. destruct M as (k3 & k4 & -> & M3 & M4). apply means_one in M4.
      apply means_plain in M4; [|reflexivity]. subst k4. cbn [reading List.app]. rewrite EA.
      assert (EI : ki = flat_map (fun x => [KSpace; KNumber (number_of x)]) ix).
      { revert ki MI. clear. induction ix as [|y ix IHx]; intros ki MI; cbn [flat_map List.app] in MI |- *.
        - apply means_nil in MI. exact MI.
        - apply means_cons in MI; [|reflexivity]. destruct MI as (a & -> & MI).
          apply means_cons in MI; [|reflexivity]. destruct MI as (b & -> & MI). cbn [reading List.app].
          rewrite (IHx b MI). reflexivity. }
      subst ki. rewrite List.app_assoc.
      apply KVar; [right; reflexivity|exact E2|]. apply KI. eapply fallback_kept; eassumption. }
    destruct (deep d); [discriminate|].
    destruct (concat_some (map snd (under d args))) as [x|] eqn:C; [|discriminate]. injection H as <-.
    unfold all_tokens in M. cbn [flat_map] in M. rewrite app_nil_r, tokens_eq in M.
    apply means_cons in M; [|reflexivity]. destruct M as (k1 & -> & M).
    apply means_app in M. destruct M as (k3 & k4 & -> & M3 & M4). apply means_one in M4.
    apply means_plain in M4; [|reflexivity]. subst k4. cbn [reading List.app].
    destruct (trim_means x k3 M3) as (k0 & K0 & T). apply (KCall o f args k0 k3); [|exact T].
    pose proof (concat_stands (under d args) x P C k0 K0) as K. rewrite under_fst in K. exact K.
Qed.

Theorem list_stands : forall d src l k, read_list o d src = Some l -> MeansAll (all_tokens m l) k ->
  exists k0, KeptAll o src k0 /\ Trimmed k0 k.
Proof.
  intros d src l k H M. unfold read_list in H.
  destruct (concat_some (map (read_tree o d) src)) as [x|] eqn:C; [|discriminate]. injection H as <-.
  destruct (trim_means x k M) as (k0 & K0 & T). exists k0. split; [|exact T].
  pose (ps := map (fun t => (t, read_tree o d t)) src).
  assert (E1 : map fst ps = src). { unfold ps. rewrite map_map. apply map_id. }
  assert (E2 : map snd ps = map (read_tree o d) src). { unfold ps. rewrite map_map. reflexivity. }
  rewrite <- E1. apply (concat_stands ps x); [|rewrite E2; exact C|exact K0].
  unfold ps. apply Forall_map. apply Forall_forall. intros t _ y E. cbn [snd fst] in *. eapply tree_stands. exact E.
Qed.

(** ** What is read is fine *)

Hypothesis FR : fine_readers o.
Definition Fine (l : list item) : Prop := forallb fine (all_tokens m l) = true.

Lemma fine_app : forall a b, Fine a -> Fine b -> Fine (a ++ b)%list.
Proof. intros a b A B. unfold Fine. rewrite all_tokens_app, forallb_app, A, B. reflexivity. Qed.

Lemma fine_trim : forall l, Fine l -> Fine (trim l).
Proof.
  intros l H. unfold Fine in *. rewrite forallb_forall in *. intros t I. apply H. unfold all_tokens in *.
  apply in_flat_map in I. destruct I as (i & I & J). apply in_flat_map. exists i. split; [|exact J].
  unfold trim in I. destruct l as [|a [|b r]]; try exact I. unfold drop_last in I. cbn [List.tl] in I.
  assert (RL : forall (z : list item) y, In y (removelast z) -> In y z).
  { clear. induction z as [|x z IH]; intros y J; [exact J|]. cbn [removelast] in J. destruct z; [contradiction|].
    destruct J as [J|J]; [left; exact J|right; apply IH; exact J]. }
  destruct (is_space a); destruct (is_space (List.last (a :: b :: r) a)).
  - right. apply RL. exact I.
  - right. exact I.
  - apply RL in I. exact I.
  - exact I.
Qed.

Definition FineP (p : tree * option (list item)) : Prop :=
  fine_tree (fst p) = true -> forall l, snd p = Some l -> Fine l.

Fixpoint fine_trees (l : list tree) : bool := match l with [] => true | x :: r => fine_tree x && fine_trees r end.

Lemma fine_trees_forall : forall l, fine_trees l = true -> Forall (fun t => fine_tree t = true) l.
Proof.
  induction l as [|t l IH]; intros H; [constructor|]. cbn in H. apply andb_true_iff in H. destruct H as [H1 H2].
  constructor; [exact H1|apply IH; exact H2].
Qed.

Definition FineQ (p : tree * option (list item)) : Prop :=
  fine_tree (fst p) = true /\ forall l, snd p = Some l -> Fine l.

Lemma concat_fine : forall ps l, Forall FineQ ps -> concat_some (map snd ps) = Some l -> Fine l.
Proof.
  induction ps as [|[t x] ps IH]; intros l F H.
  - cbn in H. injection H as <-. reflexivity.
  - cbn [map snd concat_some] in H. destruct x as [a|]; [|discriminate].
    destruct (concat_some (map snd ps)) as [b|] eqn:E; [|discriminate]. injection H as <-.
    apply fine_app; [apply (proj2 (Forall_inv F) a eq_refl)|apply IH; [exact (Forall_inv_tail F)|reflexivity]].
Qed.

Lemma skip_fine : forall ps, Forall FineQ ps -> Forall FineQ (skip ps).
Proof.
  intros ps F. destruct (skip_split ps) as (pre & E & _). rewrite E in F. apply Forall_app in F. apply F.
Qed.

Lemma fallback_fine : forall dp ps fb, Forall FineQ ps -> read_fallback dp ps = Some fb ->
  forallb fine (fallback_tokens m fb) = true.
Proof.
  intros dp ps fb F H. unfold read_fallback in H. apply skip_fine in F. destruct (skip ps) as [|[t x] r]; [injection H as <-; reflexivity|].
  destruct t as [[]| |]; try discriminate. destruct dp; [discriminate|].
  destruct (concat_some (map snd r)) as [l|] eqn:C; [|discriminate]. injection H as <-.
  cbn [fallback_tokens forallb fine andb]. rewrite forallb_app. apply andb_true_iff. split.
  - unfold fallback_space. destruct (_ || _); reflexivity.
  - apply fine_trim. eapply concat_fine; [|exact C]. exact (Forall_inv_tail F).
Qed.

Lemma indices_fine : forall fuel (ps : list (tree * option (list item))) ix r,
  read_indices fuel ps = (ix, r) -> Forall FineQ ps ->
  Forall FineQ r /\ forallb num_ok ix = true.
Proof.
  induction fuel as [|f IH]; intros ps ix r H F; cbn [read_indices] in H.
  - injection H as <- <-. split; [exact F|reflexivity].
  - pose proof (skip_fine ps F) as F2. destruct (skip ps) as [|[t x] q] eqn:S.
    + injection H as <- <-. split; [exact F|reflexivity].
    + destruct t as [[]| |]; try (injection H as <- <-; split; [exact F|reflexivity]).
      destruct (n_int n); [|injection H as <- <-; split; [exact F|reflexivity]].
      destruct (read_indices f q) as [xs r'] eqn:R. injection H as <- <-.
      destruct (IH q xs r' R (Forall_inv_tail F2)) as [A B]. split; [exact A|]. cbn [forallb]. rewrite B.
      pose proof (proj1 (Forall_inv F2)) as N. cbn [fst fine_tree fine] in N. rewrite N. reflexivity.
Qed.

Lemma under_fine : forall d body, fine_trees body = true ->
  Forall (fun t => forall d l, fine_tree t = true -> read_tree o d t = Some l -> Fine l) body ->
  Forall FineQ (under d body).
Proof.
  intros d body F H. apply fine_trees_forall in F. unfold under.
  destruct d; apply Forall_map; rewrite Forall_forall in *; intros t I; split; cbn [fst snd].
  - apply F. exact I.
  - discriminate.
  - apply F. exact I.
  - intros l E. apply (H t I d l); [apply F; exact I|exact E].
Qed.

Lemma fine_tree_call : forall f args, fine_tree (Call f args) = true -> name_ok f = true /\ fine_trees args = true.
Proof. intros f args H. cbn [fine_tree] in H. apply andb_true_iff in H. exact H. Qed.

Theorem tree_fine : forall t d l, fine_tree t = true -> read_tree o d t = Some l -> Fine l.
Proof.
  destruct FR as (FC & FH & FD).
  intros t. induction t as [t|b body IH|f args IH] using tree_ind2; intros d l F H.
  - rewrite read_tree_eq in H. cbn [fine_tree] in F. unfold Fine.
    destruct t as [n|n|n|n|x|x|n|c|n|n|n v|w|c| | | |p| | |b|b]; try discriminate;
      try (injection H as <-; cbn [all_tokens flat_map tokens_of List.app forallb]; rewrite F; reflexivity).
    + destruct (starts_dashes n); injection H as <-; cbn [all_tokens flat_map tokens_of List.app forallb]; cbn [fine] in *;
        rewrite F; reflexivity.
    + destruct (o_hash o n) as [ts|] eqn:E; injection H as <-; cbn [all_tokens flat_map tokens_of List.app forallb].
      * rewrite app_nil_r. eapply FH. exact E.
      * rewrite F. reflexivity.
    + destruct (o_hash o n) as [ts|] eqn:E; injection H as <-; cbn [all_tokens flat_map tokens_of List.app forallb].
      * rewrite app_nil_r. eapply FH. exact E.
      * cbn [fine] in *. rewrite F. reflexivity.
    + destruct (o_dimension o n v) as [ts|] eqn:E; injection H as <-; cbn [all_tokens flat_map tokens_of List.app forallb].
      * rewrite app_nil_r. eapply FD. exact E.
      * rewrite F. reflexivity.
  - rewrite read_tree_eq in H. destruct (deep d); [discriminate|].
    destruct (concat_some (map snd (under d body))) as [x|] eqn:C; [|discriminate]. injection H as <-.
    change (Tok (TOpen b) :: x ++ [Tok (TClose b)])%list with ([Tok (TOpen b)] ++ x ++ [Tok (TClose b)])%list.
    apply fine_app; [reflexivity|]. apply fine_app; [|reflexivity].
    eapply concat_fine; [|exact C]. apply under_fine; [exact F|exact IH].
  - rewrite read_tree_eq in H. apply fine_tree_call in F. destruct F as [FN FA].
    pose proof (under_fine d args FA IH) as P.
    destruct (o_color o f args) as [ts|] eqn:OC.
    { injection H as <-. unfold Fine. cbn [all_tokens flat_map tokens_of List.app]. rewrite app_nil_r. eapply FC. exact OC. }
    cbv zeta in H. destruct (String.eqb f "url").
    { unfold read_quoted_url in H. pose proof (skip_fine _ P) as P2. destruct (skip (under d args)) as [|[t x] r]; [discriminate|].
      destruct t as [[]| |]; try discriminate. destruct (skip r); [|discriminate]. injection H as <-.
      pose proof (proj1 (Forall_inv P2)) as N. cbn [fst fine_tree fine] in N.
      unfold Fine. cbn [all_tokens flat_map tokens_of List.app forallb fine]. rewrite N. reflexivity. }
    destruct (String.eqb f "var").
    { unfold read_var in H. pose proof (skip_fine _ P) as P2. destruct (skip (under d args)) as [|[t x] r]; [discriminate|].
      destruct t as [[]| |]; try discriminate. destruct (starts_dashes n); [|discriminate].
      destruct (read_fallback (deep d) r) as [fb|] eqn:RF; [|discriminate]. injection H as <-.
      pose proof (proj1 (Forall_inv P2)) as N. cbn [fst fine_tree fine] in N.
      unfold Fine, all_tokens. cbn [flat_map]. rewrite app_nil_r, tokens_eq. cbn [List.app forallb fine].
      rewrite N, forallb_app, (fallback_fine _ _ _ (Forall_inv_tail P2) RF). reflexivity. }
    destruct (String.eqb f "env").
    { unfold read_env in H. pose proof (skip_fine _ P) as P2. destruct (skip (under d args)) as [|[t x] r]; [discriminate|].
      destruct t as [[]| |]; try discriminate.
      destruct (read_indices (List.length r) r) as [ix r'] eqn:RI.
      destruct (indices_fine _ _ _ _ RI (Forall_inv_tail P2)) as [P3 NI].
      destruct (read_fallback (deep d) r') as [fb|] eqn:RF; [|discriminate]. injection H as <-.
      pose proof (proj1 (Forall_inv P2)) as N. cbn [fst fine_tree fine] in N.
      unfold Fine, all_tokens. cbn [flat_map]. rewrite app_nil_r, tokens_eq. cbn [List.app forallb fine].
      rewrite N, !forallb_app, (fallback_fine _ _ _ P3 RF).
      assert (Q : forallb fine (flat_map (fun x => [TSpace " "; TNumber x]) ix) = true).
      { revert NI. clear. induction ix as [|y ix IHx]; [reflexivity|]. cbn [forallb flat_map List.app fine]. intros NI.
        apply andb_true_iff in NI. destruct NI as [N1 N2]. rewrite N1, (IHx N2). reflexivity. }
      rewrite Q. reflexivity. }
    destruct (deep d); [discriminate|].
    destruct (concat_some (map snd (under d args))) as [x|] eqn:C; [|discriminate]. injection H as <-.
    unfold Fine, all_tokens. cbn [flat_map]. rewrite app_nil_r, tokens_eq. cbn [forallb fine].
    rewrite FN, forallb_app. cbn [andb].
    pose proof (fine_trim x (concat_fine _ _ P C)) as FT. unfold Fine in FT. rewrite FT. reflexivity.
Qed.

Theorem list_fine : forall d src l, forallb fine_tree src = true -> read_list o d src = Some l -> Fine l.
Proof.
  intros d src l F H. unfold read_list in H.
  destruct (concat_some (map (read_tree o d) src)) as [x|] eqn:C; [|discriminate]. injection H as <-.
  apply fine_trim. pose (ps := map (fun t => (t, read_tree o d t)) src).
  apply (concat_fine ps); [|unfold ps; rewrite map_map; exact C].
  unfold ps. apply Forall_map. rewrite forallb_forall in F. apply Forall_forall. intros t I. split; cbn [fst snd].
  - apply F. exact I.
  - intros y E. eapply tree_fine; [apply F; exact I|exact E].
Qed.

Theorem value_kept : forall d src l r, forallb fine_tree src = true -> read_list o d src = Some l ->
  all_apart (kept m (all_tokens m l)) = true -> stops r = true ->
  exists k k1 k0, Lexes (print m l ++ r) k r /\ squeeze k = squeeze k1 /\ KeptAll o src k0 /\ Trimmed k0 k1.
Proof.
  intros d src l r F H A S. destruct (print_lexes m l r (list_fine d src l F H) A S) as (k & k1 & L & M & Q).
  destruct (list_stands d src l k1 H M) as (k0 & K & T). exists k, k1, k0. tauto.
Qed.
End Reading.
