(** * Border images that a later border takes away *)
From Coq Require Import List Bool Lia.
From Verif Require Import SideModel SideSpec SideProofs SideOrderProofs BorderModel BorderSpec BorderProofs BorderOrderProofs.
Import ListNotations.

Section Proofs.
Variable V R M : Type.
Variable mean : V -> M.
Variable veq : V -> V -> bool.
Variable compat : V -> bool.
Variable fb : list V -> list (list V) * list V.
Variable ls ss : bool.
Variable w : writing_mode.
Notation decl := (decl V R).
Notation event := (event V R).
Notation state := (state V).
Notation flush := (flush V R veq fb ls ss).
Notation handle := (handle V R veq compat fb ls ss).
Notation handle_all := (handle_all V R veq compat fb ls ss).
Notation minify := (minify V R veq compat fb ls ss).
Notation then_ := (then_ V R).
Notation property := (property V R veq compat fb ls ss).
Notation set_border := (set_border V R veq fb ls ss).
Notation fine := (fine V R).

(** Declarations of borders, and none of images *)
Definition plain (d : decl) : bool :=
  match d with DImageOne _ _ | DImage _ _ _ _ _ => false | DRaw i _ => negb (is_image i) | _ => true end.
Definition quiet_event (x : event) : Prop := match x with Main d => plain d = true | Dir a b => plain a = true /\ plain b = true end.
Notation all_plain := (Forall (fun d : decl => plain d = true)).

Lemma diff_plain log x o l : all_plain (side_diff V R veq log x o l).
Proof. unfold side_diff. repeat match goal with |- context [if ?c then _ else _] => destruct c end; repeat constructor. Qed.
Lemma inline_plain log x l r : all_plain (inline_diff V R veq log x l r).
Proof.
  unfold inline_diff. cbn zeta.
  match goal with |- Forall _ (match ?o with Some _ => _ | None => _ end) => destruct o as [e|] eqn:E end.
  - repeat match type of E with (if ?c then _ else _) = _ => destruct c end; try discriminate E; injection E as <-; repeat constructor.
  - apply Forall_app. split; apply diff_plain.
Qed.
Lemma complete_plain log t b l r : all_plain (complete V R veq log t b l r).
Proof.
  unfold complete. cbn zeta.
  repeat match goal with
  | |- Forall _ (if ?c then _ else _) => destruct c
  | |- Forall _ (_ ++ _) => apply Forall_app; split
  | |- Forall _ (side_diff _ _ _ _ _ _ _) => apply diff_plain
  | |- Forall _ (inline_diff _ _ _ _ _ _ _) => apply inline_plain
  | |- Forall _ (_ :: _) => constructor; [reflexivity|]
  | |- Forall _ [] => constructor
  end.
Qed.
Lemma turn_plain g f : (forall k f, all_plain (fst (g k f))) -> all_plain (fst (in_turn V R g f)).
Proof.
  intros H. unfold in_turn. pose proof (H Style f) as A. destruct (g Style f) as [e1 f1]. pose proof (H Width f1) as B. destruct (g Width f1) as [e2 f2].
  pose proof (H Color f2) as C. destruct (g Color f2) as [e3 f3]. cbn [fst] in *. apply Forall_app. split; [exact A|]. apply Forall_app. split; assumption.
Qed.
Lemma rect_plain log k f : all_plain (fst (rect V R veq log k f)).
Proof. unfold rect. repeat (destruct (f _ k); [|constructor]). destruct (_ || _); repeat constructor. Qed.
Lemma pair_plain a k f : all_plain (fst (pair V R a k f)).
Proof. unfold pair. repeat (destruct (f _ k); [|constructor]). repeat constructor. Qed.
Lemma inline_prop_plain k f : all_plain (fst (inline_prop V R veq k f)).
Proof. unfold inline_prop. repeat (destruct (f _ k); [|constructor]). destruct (veq _ _); repeat constructor. Qed.
Lemma side_plain log l f : all_plain (side_props V R log l f).
Proof. unfold side_props. destruct (to_border V (f l)); [repeat constructor|]. repeat (apply Forall_app; split); destruct (f l _); repeat constructor. Qed.
Lemma block_plain log f : all_plain (block_props V R veq ls ss log f).
Proof.
  unfold block_props. destruct (if log then _ else _) as [b|]; [destruct ls, ss; repeat constructor|].
  destruct (log && ss && _ && _).
  - pose proof (turn_plain (pair V R Block) f (pair_plain Block)) as A. destruct (in_turn V R (pair V R Block) f) as [e f']. cbn [fst] in A.
    apply Forall_app. split; [exact A|]. apply Forall_app. split; apply side_plain.
  - cbn [app]. apply Forall_app. split; apply side_plain.
Qed.
Lemma inlines_plain log f : all_plain (inline_props V R veq ls ss log f).
Proof.
  unfold inline_props. destruct (if log then _ else _) as [b|]; [destruct ls, ss; repeat constructor|].
  destruct (log && _ && _).
  - assert (A : all_plain (fst (in_turn V R (if ss then pair V R Inline else inline_prop V R veq) f))).
    { apply turn_plain. destruct ss; [apply pair_plain|apply inline_prop_plain]. }
    destruct (in_turn V R _ f) as [e f']. cbn [fst] in A.
    apply Forall_app. split; [exact A|]. apply Forall_app. split; apply side_plain.
  - cbn [app]. apply Forall_app. split; apply side_plain.
Qed.
Lemma category_plain log f : all_plain (category_props V R veq ls ss log f).
Proof.
  unfold category_props.
  assert (O : all_plain (let (e, f) := in_turn V R (rect V R veq log) f in e ++ block_props V R veq ls ss log f ++ inline_props V R veq ls ss log f)).
  { pose proof (turn_plain _ f (rect_plain log)) as A. destruct (in_turn V R (rect V R veq log) f) as [e f']. cbn [fst] in A.
    apply Forall_app. split; [exact A|]. apply Forall_app. split; [apply block_plain|apply inlines_plain]. }
  repeat (destruct (to_border V (f _)); [|exact O]). apply complete_plain.
Qed.
Lemma with_colors_plain d l : plain d = true -> plain (with_colors V R d l) = true.
Proof.
  intros H. destruct d as [p [] v|p b|a [] x y|a b|[] t r b l0|b|j x|a b c d e|j u]; try exact H;
    repeat (destruct l as [|? l]; try exact H; try reflexivity).
Qed.
Lemma push_quiet fl d : plain d = true -> Forall quiet_event (snd (push V R fb fl d)).
Proof.
  intros H. unfold push. destruct (colors V R d) as [l|]; [|repeat constructor; exact H]. destruct (contains _ fl); [repeat constructor; exact H|].
  destruct (fb l) as [pre l']. cbn [snd]. apply Forall_app. split; [|repeat constructor; apply with_colors_plain; exact H].
  apply Forall_forall. intros x Hx. apply in_map_iff in Hx. destruct Hx as (y & <- & _). apply with_colors_plain. exact H.
Qed.
Lemma prop_quiet fl d : plain d = true -> Forall quiet_event (snd (prop V R fb ls fl d)).
Proof.
  intros H. unfold prop. destruct ls; [apply push_quiet; exact H|].
  destruct d as [p k v|p b| | | | | | |]; try (apply push_quiet; exact H); destruct p as [s|[]]; try (apply push_quiet; reflexivity); repeat constructor.
Qed.
Lemma props_quiet l : forall fl, all_plain l -> Forall quiet_event (snd (props V R fb ls fl l)).
Proof.
  induction l as [|d l IH]; intros fl H; [constructor|]. cbn [props]. pose proof (prop_quiet fl d (Forall_inv H)) as A.
  destruct (prop V R fb ls fl d) as [fl' e]. pose proof (IH fl' (Forall_inv_tail H)) as B. destruct (props V R fb ls fl' l) as [fl'' e'].
  cbn [snd] in *. apply Forall_app. split; assumption.
Qed.
Lemma flush_quiet s : Forall quiet_event (snd (flush s)).
Proof.
  unfold BorderModel.flush. destruct (has_any V s); [|constructor].
  pose proof (props_quiet _ (done V s) (category_plain false (fun l => slot_of V s (P (canonical l))))) as A.
  destruct (props V R fb ls (done V s) _) as [fl e].
  pose proof (props_quiet _ fl (category_plain true (fun l => slot_of V s (L l)))) as B. destruct (props V R fb ls fl _) as [fl' e'].
  cbn [snd] in *. apply Forall_app. split; assumption.
Qed.
Lemma raw_quiet fl i u : is_image i = false -> Forall quiet_event (snd (push_raw V R ls fl i u)).
Proof.
  intros H. assert (N : plain (DRaw i u) = true) by (cbn; rewrite H; reflexivity).
  unfold push_raw. destruct ls; [repeat constructor; exact N|].
  destruct i as [[s|[]] k|[s|[]]|a k|a|k| |i|]; try discriminate H; repeat constructor.
Qed.

(** ** No image is pushed before the end *)
Definition calm (s : state) : Prop := image_any V s = true -> image_prefix V s = true.
Lemma calm_flush s : calm s -> fine calm quiet_event (flush s).
Proof. intros H. split; [|apply flush_quiet]. destruct (flush_fields V R veq fb ls ss s) as (_ & E2 & E3 & _). unfold calm. rewrite E2, E3. exact H. Qed.
Lemma calm_image s : calm s -> image_prefix V s = false -> image_flush V R s = (s, []).
Proof. intros H E. unfold image_flush. destruct (image_any V s) eqn:A; [|reflexivity]. rewrite (H A) in E. discriminate. Qed.
Lemma not_loses o x : compat x = true -> loses V veq compat o x = false.
Proof. intros H. destruct o as [o|]; [|reflexivity]. unfold loses. rewrite H. apply andb_false_r. Qed.
Lemma calm_step s d : plain_image compat d -> calm s -> fine calm quiet_event (handle s d).
Proof.
  intros Hd H. pose proof calm_flush as HF.
  assert (HP : forall p k x s, calm s -> fine calm quiet_event (property p k x s)).
  { intros p k x s' H'. apply fine_property; [exact HF|exact H'|]. intros s2 H2. exact H2. }
  assert (HB : forall p b s, calm s -> fine calm quiet_event (set_border p b s)).
  { intros p b s' H'. apply fine_border; [exact HF|exact H'|]. intros s2 H2. exact H2. }
  destruct d as [p k x|p b|a k x y|a b|k t r b l|b|j x|a b c d e|j u]; cbn [BorderModel.handle]; auto.
  - apply fine_then; auto.
  - apply fine_then; auto.
  - apply fine_then; [do 3 (apply fine_then; [|intros; apply HP; assumption]); apply HP; exact H|]. intros s' H'. apply fine_id. exact H'.
  - apply fine_id. exact H.
  - cbn in Hd. apply fine_then; [|intros; apply fine_id; intros _; reflexivity].
    apply fine_then; [|intros s' H'; unfold image_loses; rewrite (not_loses _ _ Hd); apply fine_id; exact H'].
    apply fine_then; [unfold flush_if; destruct (negb _); [apply HF; exact H|apply fine_id; exact H]|].
    intros s' H'. destruct (image_prefix V s') eqn:E; [apply fine_id; exact H'|]. rewrite (calm_image s' H' E). apply fine_id. exact H'.
  - cbn in Hd. destruct Hd as (H1 & H2 & H3 & H4 & H5). apply fine_then; [|intros; apply fine_id; intros _; reflexivity].
    unfold image_loses. do 4 (apply fine_then; [|intros s' H'; rewrite not_loses by assumption; apply fine_id; exact H']).
    rewrite not_loses by assumption. apply fine_id. exact H.
  - cbn in Hd. rewrite Hd. apply fine_then; [apply HF; exact H|]. intros s' H'. pose proof (raw_quiet (done V s') j u Hd) as Q.
    destruct (push_raw V R ls (done V s') j u). split; [exact H'|exact Q].
Qed.
Lemma calm_steps l : forall s, Forall (plain_image compat) l -> calm s -> fine calm quiet_event (handle_all s l).
Proof.
  induction l as [|d l IH]; intros s Hl H; [apply fine_id; exact H|]. cbn [BorderModel.handle_all].
  apply fine_then; [apply calm_step; [exact (Forall_inv Hl)|exact H]|]. intros s' H'. apply IH; [exact (Forall_inv_tail Hl)|exact H'].
Qed.

(** ** What is not pending *)
Definition gone (i : ikey) (s : state) : Prop := image V s i = None /\ calm s.
Lemma gone_flush i s : gone i s -> fine (gone i) (fun _ => True) (flush s).
Proof.
  intros [A B]. split; [|apply Forall_forall; auto]. destruct (flush_fields V R veq fb ls ss s) as (E1 & E2 & E3 & _). unfold gone, calm. rewrite E1, E2, E3. auto.
Qed.
Lemma gone_step i s d : plain_image compat d -> gives mean w d (TI i) = None -> gone i s -> gone i (fst (handle s d)).
Proof.
  intros Hd Hg H. pose proof (gone_flush i) as HF.
  assert (HP : forall p k x s, gone i s -> fine (gone i) (fun _ => True) (property p k x s)).
  { intros p k x s' H'. apply fine_property; [exact HF|exact H'|]. intros s2 H2. exact H2. }
  assert (HB : forall p b s, gone i s -> fine (gone i) (fun _ => True) (set_border p b s)).
  { intros p b s' H'. apply fine_border; [exact HF|exact H'|]. intros s2 H2. exact H2. }
  assert (G : fine (gone i) (fun _ => True) (handle s d)); [|apply G].
  destruct d as [p k x|p b|a k x y|a b|k t r b l|b|j x|a b c d e|j u]; cbn [BorderModel.handle]; auto.
  - apply fine_then; auto.
  - apply fine_then; auto.
  - apply fine_then; [do 3 (apply fine_then; [|intros; apply HP; assumption]); apply HP; exact H|]. intros s' H'. apply fine_id. exact H'.
  - discriminate Hg.
  - cbn in Hd. apply fine_then.
    2:{ intros s' [A B]. apply fine_id. split; [|intros _; reflexivity]. cbn. cbn in Hg. destruct (ikey_eqb j i); [discriminate Hg|exact A]. }
    apply fine_then; [|intros s' H'; unfold image_loses; rewrite (not_loses _ _ Hd); apply fine_id; exact H'].
    apply fine_then; [unfold flush_if; destruct (negb _); [apply HF; exact H|apply fine_id; exact H]|].
    intros s' H'. destruct (image_prefix V s') eqn:E; [apply fine_id; exact H'|]. rewrite (calm_image s' (proj2 H') E). apply fine_id. exact H'.
  - discriminate Hg.
  - cbn in Hd. rewrite Hd. apply fine_then; [apply HF; exact H|]. intros s' H'. destruct (push_raw V R ls (done V s') j u).
    split; [exact H'|apply Forall_forall; auto].
Qed.
Lemma gone_steps i l : forall s, Forall (plain_image compat) l -> (forall d, In d l -> gives mean w d (TI i) = None) -> gone i s -> gone i (fst (handle_all s l)).
Proof.
  induction l as [|d l IH]; intros s Hl Hg H; [exact H|]. cbn [BorderModel.handle_all]. rewrite then_fst. apply IH; [exact (Forall_inv_tail Hl)| |].
  - intros d' Hd'. apply Hg. right. exact Hd'.
  - apply gone_step; [exact (Forall_inv Hl)|apply Hg; left; reflexivity|exact H].
Qed.

Definition reset_or (o : option (cell R M)) (x : option (cell R M)) : Prop := x = Some CInitial \/ x = o.
Lemma plain_reset d i : plain d = true -> gives mean w d (TI i) = None \/ gives mean w d (TI i) = Some CInitial.
Proof. intros H. destruct d as [p k x|p b|a k x y|a b|k t r b l|b|j x|a b c d e|j u]; try discriminate H; auto. destruct j; try discriminate H; auto. Qed.
Lemma plain_used l i : forall o, Forall (fun d => plain d = true) l -> reset_or o (used_from mean w l o (TI i)).
Proof.
  induction l as [|d l IH]; intros o H; [right; reflexivity|]. cbn [used_from]. pose proof (Forall_inv_tail H) as Hl.
  destruct (plain_reset d i (Forall_inv H)) as [-> | ->]; [apply IH; exact Hl|]. left. destruct (IH (Some CInitial) Hl) as [E|E]; exact E.
Qed.
Lemma mains_plain l : Forall quiet_event l -> Forall (fun d => plain d = true) (mains l).
Proof. induction 1 as [|[d|a b] l H _ IH]; [constructor| |exact IH]. constructor; [exact H|exact IH]. Qed.
Lemma gone_used i s o : image V s i = None -> used_from mean w (mains (snd (image_flush V R s))) o (TI i) = o.
Proof.
  intros A. unfold image_flush. destruct (image_any V s); [|reflexivity]. cbn [snd].
  assert (E : forall l : list decl, mains (map Main l) = l) by (induction l as [|d l IH]; [reflexivity|cbn; f_equal; exact IH]).
  rewrite E. clear E. unfold image_props. destruct (image V s Source) eqn:E1, (image V s Slice) eqn:E2, (image V s ImageWidth) eqn:E3, (image V s Outset) eqn:E4, (image V s Repeat) eqn:E5;
    destruct i; try congruence; reflexivity.
Qed.

Theorem image_gone c l1 b l2 i o :
  Forall (plain_image compat) (l1 ++ DBorder b :: l2) -> (forall d, In d l2 -> gives mean w d (TI i) = None) ->
  reset_or o (used_from mean w (mains (minify c (l1 ++ DBorder b :: l2))) o (TI i)).
Proof.
  intros Hl Hg. unfold BorderModel.minify. set (l := l1 ++ DBorder b :: l2) in *.
  assert (C0 : calm (start V c)) by (intros H; discriminate H).
  destruct (calm_steps l (start V c) Hl C0) as [C1 Q1].
  rewrite !then_snd, !mains_app, !(used_app V R M). rewrite !then_fst.
  rewrite gone_used.
  - rewrite <- (used_app V R M). apply plain_used. apply Forall_app. split; apply mains_plain; [exact Q1|apply flush_quiet].
  - destruct (flush_fields V R veq fb ls ss (fst (handle_all (start V c) l))) as (-> & _).
    unfold l. rewrite handle_all_app, then_fst. cbn [BorderModel.handle_all]. rewrite then_fst.
    apply Forall_app in Hl. destruct Hl as [Ha Hb].
    apply (gone_steps i l2); [exact (Forall_inv_tail Hb)|exact Hg|]. cbn [BorderModel.handle fst]. split; [reflexivity|].
    exact (proj1 (calm_steps l1 (start V c) Ha C0)).
Qed.
End Proofs.
