(** * Where what the handler of borders pushes goes; border images *)
From Coq Require Import List Bool Lia.
From Verif Require Import SideModel SideSpec SideProofs SideOrderProofs BorderModel BorderSpec BorderProofs.
Import ListNotations.

Section Proofs.
Variable V R M : Type.
Variable mean : V -> M.
Variable veq : V -> V -> bool.
Variable compat : V -> bool.
Variable fb : list V -> list (list V) * list V.
Variable ls ss : bool.
Notation decl := (decl V R).
Notation event := (event V R).
Notation state := (state V).
Notation flush := (flush V R veq fb ls ss).
Notation handle := (handle V R veq compat fb ls ss).
Notation handle_all := (handle_all V R veq compat fb ls ss).
Notation minify := (minify V R veq compat fb ls ss).
Notation then_ := (then_ V R).
Notation property := (property V R veq compat fb ls ss).
Notation set_border := (set_border V R veq fb ls ss).

Definition is_main (x : event) : Prop := match x with Main _ => True | Dir _ _ => False end.
Definition is_dir (x : event) : Prop := match x with Main _ => False | Dir _ _ => True end.
Lemma mains_app l k : mains (l ++ k) = mains l ++ @mains V R k. Proof. apply flat_map_app. Qed.
Lemma dirs_app rtl l k : dirs rtl (l ++ k) = dirs rtl l ++ @dirs V R rtl k. Proof. apply flat_map_app. Qed.
Lemma main_seen rtl l : Forall is_main l -> mains l = map (seen V R rtl) l /\ dirs rtl l = [].
Proof. induction l as [|[d|a b] l IH]; intros H; [split; reflexivity| |]; inversion H; subst; [|contradiction]. destruct (IH H3) as [A B]. unfold mains, dirs in *. cbn. rewrite A, B. split; reflexivity. Qed.
Lemma dir_seen rtl l : Forall is_dir l -> dirs rtl l = map (seen V R rtl) l /\ mains l = [].
Proof. induction l as [|[d|a b] l IH]; intros H; [split; reflexivity| |]; inversion H; subst; [contradiction|]. destruct (IH H3) as [A B]. unfold mains, dirs in *. cbn. rewrite A, B. split; reflexivity. Qed.
Definition sorted (l : list event) : Prop := exists a b, l = a ++ b /\ Forall is_main a /\ Forall is_dir b.
Lemma sorted_seen rtl l : sorted l -> mains l ++ dirs rtl l = map (seen V R rtl) l.
Proof.
  intros (a & b & -> & Ha & Hb). rewrite mains_app, dirs_app, map_app. destruct (main_seen rtl a Ha) as [A1 A2]. destruct (dir_seen rtl b Hb) as [B1 B2].
  rewrite A1, A2, B1, B2, app_nil_r. reflexivity.
Qed.
Lemma main_sorted l k : Forall is_main l -> sorted k -> sorted (l ++ k).
Proof. intros H (a & b & -> & Ha & Hb). exists (l ++ a), b. rewrite app_assoc. split; [reflexivity|]. split; [apply Forall_app; split; assumption|exact Hb]. Qed.

(** ** Pushing *)
Lemma push_main fl d : Forall is_main (snd (push V R fb fl d)).
Proof.
  unfold push. destruct (colors V R d) as [l|]; [|repeat constructor]. destruct (contains _ fl); [repeat constructor|]. destruct (fb l) as [pre l']. cbn [snd].
  apply Forall_app. split; [|repeat constructor]. induction pre as [|x pre IH]; constructor; [exact I|exact IH].
Qed.
(** Declarations that go to the rules for the directions *)
Definition turned (d : decl) : bool :=
  match d with DOne (L (InlineStart | InlineEnd)) _ _ | DSide (L (InlineStart | InlineEnd)) _ => true | _ => false end.
Lemma prop_main fl d : ls = true \/ turned d = false -> Forall is_main (snd (prop V R fb ls fl d)).
Proof.
  intros H. unfold prop. destruct ls; [apply push_main|]. destruct H as [H|H]; [discriminate|].
  destruct d as [p k v|p b| | | | | | |]; try apply push_main; destruct p as [s|[]]; try discriminate H; apply push_main.
Qed.
Lemma prop_dir fl d : ls = false -> turned d = true -> Forall is_dir (snd (prop V R fb ls fl d)).
Proof.
  intros E H. unfold prop. rewrite E. destruct d as [p k v|p b| | | | | | |]; try discriminate H; destruct p as [s|[]]; try discriminate H; repeat constructor.
Qed.
Lemma props_main l : forall fl, (ls = true \/ Forall (fun d => turned d = false) l) -> Forall is_main (snd (props V R fb ls fl l)).
Proof.
  induction l as [|d l IH]; intros fl H; [constructor|]. cbn [props].
  assert (Hd : ls = true \/ turned d = false) by (destruct H as [H|H]; [left; exact H|right; inversion H; assumption]).
  assert (Hl : ls = true \/ Forall (fun d => turned d = false) l) by (destruct H as [H|H]; [left; exact H|right; inversion H; assumption]).
  pose proof (prop_main fl d Hd) as A. destruct (prop V R fb ls fl d) as [fl' e]. pose proof (IH fl' Hl) as B. destruct (props V R fb ls fl' l) as [fl'' e'].
  cbn [snd] in *. apply Forall_app. split; assumption.
Qed.
Lemma props_dir l : forall fl, ls = false -> Forall (fun d => turned d = true) l -> Forall is_dir (snd (props V R fb ls fl l)).
Proof.
  induction l as [|d l IH]; intros fl E H; [constructor|]. cbn [props]. pose proof (Forall_inv H) as H2. pose proof (Forall_inv_tail H) as H3.
  pose proof (prop_dir fl d E H2) as A. destruct (prop V R fb ls fl d) as [fl' e]. pose proof (IH fl' E H3) as B. destruct (props V R fb ls fl' l) as [fl'' e'].
  cbn [snd] in *. apply Forall_app. split; assumption.
Qed.
Lemma props_app l : forall k fl, snd (props V R fb ls fl (l ++ k)) = snd (props V R fb ls fl l) ++ snd (props V R fb ls (fst (props V R fb ls fl l)) k).
Proof.
  induction l as [|d l IH]; intros k fl; [reflexivity|]. cbn [app props]. destruct (prop V R fb ls fl d) as [fl' e]. specialize (IH k fl').
  destruct (props V R fb ls fl' (l ++ k)) as [f1 e1]. destruct (props V R fb ls fl' l) as [f2 e2]. cbn [fst snd] in *. rewrite IH, app_assoc. reflexivity.
Qed.
Definition in_order (l : list decl) : Prop := exists a b, l = a ++ b /\ Forall (fun d => turned d = false) a /\ Forall (fun d => turned d = true) b.
Lemma props_sorted fl l : ls = false -> in_order l -> sorted (snd (props V R fb ls fl l)).
Proof.
  intros E (a & b & -> & Ha & Hb). rewrite props_app. eexists _, _. split; [reflexivity|]. split; [apply props_main; right; exact Ha|apply props_dir; assumption].
Qed.

(** ** The order in which [flush] pushes *)
Lemma diff_false log x o l : (log = false \/ on_axis Block l = true) -> Forall (fun d => turned d = false) (side_diff V R veq log x o l).
Proof.
  intros H. unfold side_diff.
  assert (N : forall k v, turned (DOne (at_side log l) k v) = false) by (intros k v; destruct H as [->|H]; [reflexivity|]; destruct log, l; try discriminate H; reflexivity).
  assert (N' : turned (DSide (at_side log l) o) = false) by (destruct H as [->|H]; [reflexivity|]; destruct log, l; try discriminate H; reflexivity).
  destruct (_ && _); [repeat constructor; apply N|]. destruct (_ && _); [repeat constructor; apply N|]. destruct (_ && _); repeat constructor; try apply N. exact N'.
Qed.
Lemma diff_true x o l : on_axis Inline l = true -> Forall (fun d => turned d = true) (side_diff V R veq true x o l).
Proof.
  intros H. unfold side_diff.
  assert (N : forall k v, turned (DOne (at_side true l) k v) = true) by (intros k v; destruct l; try discriminate H; reflexivity).
  assert (N' : turned (DSide (at_side true l) o) = true) by (destruct l; try discriminate H; reflexivity).
  destruct (_ && _); [repeat constructor; apply N|]. destruct (_ && _); [repeat constructor; apply N|]. destruct (_ && _); repeat constructor; try apply N. exact N'.
Qed.
Lemma order_false l : Forall (fun d => turned d = false) l -> in_order l.
Proof. intros H. exists l, []. rewrite app_nil_r. split; [reflexivity|]. split; [exact H|constructor]. Qed.
Lemma order_true l : Forall (fun d => turned d = true) l -> in_order l.
Proof. intros H. exists [], l. split; [reflexivity|]. split; [constructor|exact H]. Qed.
Lemma order_app l k : Forall (fun d => turned d = false) l -> in_order k -> in_order (l ++ k).
Proof. intros H (a & b & -> & Ha & Hb). exists (l ++ a), b. rewrite app_assoc. split; [reflexivity|]. split; [apply Forall_app; split; assumption|exact Hb]. Qed.
Lemma order_cons d l : turned d = false -> in_order l -> in_order (d :: l).
Proof. intros H. apply (order_app [d]). constructor; [exact H|constructor]. Qed.
Lemma complete_order t b l r : in_order (complete V R veq true t b l r).
Proof.
  unfold complete. cbn [negb andb].
  destruct (_ && _ && _); [apply order_false; repeat constructor|].
  destruct (_ && _); [apply order_cons; [reflexivity|apply order_true; apply diff_true; reflexivity]|].
  destruct (_ && _); [apply order_cons; [reflexivity|apply order_true; apply diff_true; reflexivity]|].
  destruct (_ && _); [apply order_cons; [reflexivity|apply order_false; apply diff_false; right; reflexivity]|].
  destruct (_ && _); [apply order_cons; [reflexivity|apply order_false; apply diff_false; right; reflexivity]|].
  destruct (beqb V veq t b).
  { apply order_app; [repeat constructor|]. unfold inline_diff. cbn zeta.
    match goal with |- in_order (match ?o with Some _ => _ | None => _ end) => destruct o as [e|] eqn:E end.
    - destruct (Nat.eqb _ 1).
      + repeat match type of E with (if ?c then _ else _) = _ => destruct c end; try discriminate E; injection E as <-; apply order_false; repeat constructor.
      + destruct (_ && _); [|discriminate E]. injection E as <-. apply order_false; repeat constructor.
    - apply order_true. apply Forall_app. split; apply diff_true; reflexivity. }
  destruct (beqb V veq l r).
  { apply order_app; [repeat constructor|]. apply order_false. apply Forall_app. split; apply diff_false; right; reflexivity. }
  destruct (beqb V veq b r).
  { apply order_app; [repeat constructor|]. apply order_app; [apply diff_false; right; reflexivity|apply order_true; apply diff_true; reflexivity]. }
  exists [DSide (L BlockStart) t; DSide (L BlockEnd) b], [DSide (L InlineStart) l; DSide (L InlineEnd) r]. split; [reflexivity|]. split; repeat constructor.
Qed.
Lemma complete_phys t b l r : Forall (fun d => turned d = false) (complete V R veq false t b l r).
Proof.
  unfold complete. cbn [negb andb]. unfold inline_diff. cbn zeta.
  repeat match goal with |- Forall _ (if ?c then _ else _) => destruct c end;
    repeat match goal with |- Forall _ (_ :: _) => constructor; [reflexivity|] | |- Forall _ (_ ++ _) => apply Forall_app; split end; try constructor;
    apply diff_false; left; reflexivity.
Qed.
Definition both_false (p : list decl * slots V) : Prop := Forall (fun d => turned d = false) (fst p).
Lemma turn_false g f : (forall k f, both_false (g k f)) -> both_false (in_turn V R g f).
Proof.
  intros H. unfold in_turn. pose proof (H Style f) as H1. destruct (g Style f) as [e1 f1]. pose proof (H Width f1) as H2. destruct (g Width f1) as [e2 f2].
  pose proof (H Color f2) as H3. destruct (g Color f2) as [e3 f3]. unfold both_false in *. cbn [fst] in *. rewrite !Forall_app. auto.
Qed.
Lemma rect_false log k f : both_false (rect V R veq log k f).
Proof.
  unfold rect. destruct (f BlockStart k), (f InlineEnd k), (f BlockEnd k), (f InlineStart k); try constructor. destruct (_ || _); repeat constructor.
Qed.
Lemma pair_false a k f : both_false (pair V R a k f).
Proof. unfold pair. destruct (f (start_of a) k), (f (end_of a) k); repeat constructor. Qed.
Lemma inline_prop_false k f : both_false (inline_prop V R veq k f).
Proof. unfold inline_prop. destruct (f InlineStart k), (f InlineEnd k); try constructor. destruct (veq v v0); repeat constructor. Qed.
Lemma opt_forall (Q : decl -> Prop) g o : (forall v, Q (g v)) -> Forall Q (opt_decl V R g o).
Proof. intros H. destruct o; repeat constructor. apply H. Qed.
Lemma side_turned b log l f : (forall d, (forall p, (exists k v, d = @DOne V R p k v) \/ (exists x, d = DSide p x) -> p = at_side log l) -> turned d = b \/ True) ->
  (forall k v, turned (DOne (at_side log l) k v) = b) -> (forall x, turned (DSide (at_side log l) x) = b) -> Forall (fun d => turned d = b) (side_props V R log l f).
Proof.
  intros _ H1 H2. unfold side_props. destruct (to_border V (f l)); [repeat constructor; apply H2|]. rewrite !Forall_app. repeat split; apply opt_forall; apply H1.
Qed.
Lemma side_false log l f : (log = false \/ on_axis Block l = true) -> Forall (fun d => turned d = false) (side_props V R log l f).
Proof.
  intros H. apply side_turned; [auto| |]; intros; destruct H as [->|H]; try reflexivity; destruct log, l; try discriminate H; reflexivity.
Qed.
Lemma side_true l f : on_axis Inline l = true -> Forall (fun d => turned d = true) (side_props V R true l f).
Proof. intros H. apply side_turned; [auto| |]; intros; destruct l; try discriminate H; reflexivity. Qed.
Lemma block_false log f : Forall (fun d => turned d = false) (block_props V R veq ls ss log f).
Proof.
  unfold block_props. destruct (if log then _ else _) as [b|]; [destruct ls; [destruct ss|]; repeat constructor|].
  assert (N : forall p : list decl * slots V, both_false p -> Forall (fun d => turned d = false) (let (e, f) := p in e ++ side_props V R log BlockStart f ++ side_props V R log BlockEnd f)).
  { intros [e f'] H. rewrite !Forall_app. split; [exact H|]. split; apply side_false; right; reflexivity. }
  apply (N (if _ && _ then _ else _)). destruct (_ && _); [apply turn_false; intros; apply pair_false|constructor].
Qed.
Lemma inline_order f : ls = false -> in_order (inline_props V R veq ls ss true f).
Proof.
  intros E. unfold inline_props. rewrite E. destruct (same_border V veq Inline f) as [b|]; [apply order_false; repeat constructor|].
  assert (N : forall p : list decl * slots V, both_false p -> in_order (let (e, f) := p in e ++ side_props V R true InlineStart f ++ side_props V R true InlineEnd f)).
  { intros [e f'] H. apply order_app; [exact H|]. apply order_true. rewrite Forall_app. split; apply side_true; reflexivity. }
  apply (N (if _ && _ then _ else _)). destruct (_ && _); [|constructor]. apply turn_false. intros k f'. destruct ss; [apply pair_false|apply inline_prop_false].
Qed.
Lemma inline_phys f : Forall (fun d => turned d = false) (inline_props V R veq ls ss false f).
Proof. unfold inline_props. cbn [andb app]. rewrite Forall_app. split; apply side_false; left; reflexivity. Qed.
Lemma category_phys f : Forall (fun d => turned d = false) (category_props V R veq ls ss false f).
Proof.
  unfold category_props.
  assert (N : forall p : list decl * slots V, both_false p -> Forall (fun d => turned d = false) (let (e, f) := p in e ++ block_props V R veq ls ss false f ++ inline_props V R veq ls ss false f)).
  { intros [e f'] H. rewrite !Forall_app. split; [exact H|]. split; [apply block_false|apply inline_phys]. }
  assert (N' := N _ (turn_false (rect V R veq false) f (rect_false false))).
  destruct (to_border V (f BlockStart)); [|exact N']. destruct (to_border V (f BlockEnd)); [|exact N']. destruct (to_border V (f InlineStart)); [|exact N'].
  destruct (to_border V (f InlineEnd)); [|exact N']. apply complete_phys.
Qed.
Lemma category_order f : ls = false -> in_order (category_props V R veq ls ss true f).
Proof.
  intros E. unfold category_props.
  assert (N : forall p : list decl * slots V, both_false p -> in_order (let (e, f) := p in e ++ block_props V R veq ls ss true f ++ inline_props V R veq ls ss true f)).
  { intros [e f'] H. apply order_app; [exact H|]. apply order_app; [apply block_false|apply inline_order; exact E]. }
  assert (N' := N _ (turn_false (rect V R veq true) f (rect_false true))).
  destruct (to_border V (f BlockStart)); [|exact N']. destruct (to_border V (f BlockEnd)); [|exact N']. destruct (to_border V (f InlineStart)); [|exact N'].
  destruct (to_border V (f InlineEnd)); [|exact N']. apply complete_order.
Qed.
Lemma category_none f : (forall l k, f l k = None) -> category_props V R veq ls ss true f = [].
Proof.
  intros H. assert (Hb : forall l, to_border V (f l) = None) by (intros l; unfold to_border; rewrite H; reflexivity).
  unfold category_props. rewrite Hb. unfold in_turn, rect. rewrite !H. cbn [app].
  assert (S : forall l, side_props V R true l f = []) by (intros l; unfold side_props; rewrite Hb, !H; reflexivity).
  unfold block_props, inline_props, same_border. cbn [start_of end_of]. rewrite !Hb. unfold valid. rewrite !Hb. cbn [negb andb].
  assert (P1 : forall a, in_turn V R (pair V R a) f = ([], f)) by (intros a; unfold in_turn, pair; rewrite !H; reflexivity).
  assert (P2 : in_turn V R (inline_prop V R veq) f = ([], f)) by (unfold in_turn, inline_prop; rewrite !H; reflexivity).
  destruct ss; cbn [andb]; rewrite ?P1, ?P2, !S; reflexivity.
Qed.
Lemma flush_sorted s : ls = false -> sorted (snd (flush s)).
Proof.
  intros E. unfold BorderModel.flush. destruct (has_any V s); [|exists [], []; repeat constructor].
  pose proof (props_main _ (done V s) (or_intror (category_phys (fun l => slot_of V s (P (canonical l)))))) as A. destruct (props V R fb ls (done V s) _) as [fl e].
  pose proof (props_sorted fl _ E (category_order (fun l => slot_of V s (L l)) E)) as B. destruct (props V R fb ls fl _) as [fl' e']. cbn [snd] in *.
  apply main_sorted; assumption.
Qed.
Definition no_logical (s : state) : Prop := forall l k, slot_of V s (L l) k = None.
Lemma flush_main s : ls = true \/ no_logical s -> Forall is_main (snd (flush s)).
Proof.
  intros H. unfold BorderModel.flush. destruct (has_any V s); [|constructor].
  pose proof (props_main _ (done V s) (or_intror (category_phys (fun l => slot_of V s (P (canonical l)))))) as A. destruct (props V R fb ls (done V s) _) as [fl e].
  assert (B : Forall is_main (snd (props V R fb ls fl (category_props V R veq ls ss true (fun l => slot_of V s (L l)))))).
  { destruct H as [H|H]; [apply props_main; left; exact H|]. rewrite category_none by (intros; apply H). constructor. }
  destruct (props V R fb ls fl _) as [fl' e']. cbn [snd] in *. apply Forall_app. split; assumption.
Qed.
Lemma flush_slots s : no_logical s -> no_logical (fst (flush s)).
Proof. unfold BorderModel.flush. destruct (has_any V s); [|auto]. destruct (props _ _ _ _ _ _) as [f0 e0]. destruct (props _ _ _ _ _ _) as [f1 e1]. intros _ y k. reflexivity. Qed.
Lemma flush_fields s : image V (fst (flush s)) = image V s /\ image_any V (fst (flush s)) = image_any V s /\ image_prefix V (fst (flush s)) = image_prefix V s
  /\ cat V (fst (flush s)) = cat V s.
Proof. unfold BorderModel.flush. destruct (has_any V s); [|auto]. destruct (props _ _ _ _ _ _). destruct (props _ _ _ _ _ _). auto. Qed.

(** ** Steps that have a property of states and push only events of a kind *)
Definition fine (J : state -> Prop) (Q : event -> Prop) (p : state * list event) : Prop := J (fst p) /\ Forall Q (snd p).
Lemma fine_then (J : state -> Prop) (Q : event -> Prop) p f : fine J Q p -> (forall s, J s -> fine J Q (f s)) -> fine J Q (then_ p f).
Proof.
  intros [H1 H2] H. unfold BorderModel.then_. destruct p as [s e]. cbn [fst snd] in *. destruct (H s H1) as [A B]. destruct (f s) as [s' e']. cbn [fst snd] in *.
  split; [exact A|]. apply Forall_app. split; assumption.
Qed.
Lemma fine_id (J : state -> Prop) (Q : event -> Prop) s : J s -> fine J Q (s, []). Proof. intros H. split; [exact H|constructor]. Qed.
Section Fine.
Variable J : state -> Prop.
Variable Q : event -> Prop.
Hypothesis J_flush : forall s, J s -> fine J Q (flush s).
Hypothesis J_image : forall s, J s -> fine J Q (image_flush V R s).
Lemma fine_if b s : J s -> fine J Q (flush_if V R veq fb ls ss b s).
Proof. intros H. unfold flush_if. destruct b; [apply J_flush; exact H|apply fine_id; exact H]. Qed.
Lemma fine_loses i v s : J s -> fine J Q (image_loses V R veq compat i v s).
Proof. intros H. unfold image_loses. destruct (loses _ _ _ _ _); [apply J_image; exact H|apply fine_id; exact H]. Qed.
Lemma fine_property p k v s : J s -> (forall s, J s -> J (mark V (category_of p) (set_slot V p (set_key V k (Some v) (slot_of V s p)) s))) -> fine J Q (property p k v s).
Proof.
  intros H HJ. unfold BorderModel.property. apply fine_then; [|intros; apply fine_id; apply HJ; assumption]. apply fine_then; [apply fine_if; exact H|].
  intros; apply fine_if; assumption.
Qed.
Lemma fine_border p b s : J s -> (forall s, J s -> J (mark V (category_of p) (set_slot V p (of_border V b) s))) -> fine J Q (set_border p b s).
Proof. intros H HJ. unfold BorderModel.set_border. apply fine_then; [apply fine_if; exact H|]. intros; apply fine_id; apply HJ; assumption. Qed.
End Fine.
Lemma image_main s : Forall is_main (snd (image_flush V R s)).
Proof. unfold image_flush. destruct (image_any V s); [|constructor]. cbn [snd]. induction (image_props V R (image V s)); constructor; [exact I|assumption]. Qed.
Lemma raw_main fl i u : ls = true \/ physical (@DRaw V R i u) -> Forall is_main (snd (push_raw V R ls fl i u)).
Proof.
  intros H. unfold push_raw. destruct ls; [repeat constructor|]. destruct H as [H|H]; [discriminate|].
  destruct i as [[s|l] k|[s|l]|a k|a|k| |i|]; cbn in H; try contradiction; repeat constructor.
Qed.
(** Where logical borders are supported, everything goes to the block *)
Lemma supported_step s d : ls = true -> Forall is_main (snd (handle s d)).
Proof.
  intros E. assert (HF : forall s, True -> fine (fun _ => True) is_main (flush s)) by (intros; split; [exact I|apply flush_main; left; exact E]).
  assert (HI : forall s, True -> fine (fun _ => True) is_main (image_flush V R s)) by (intros; split; [exact I|apply image_main]).
  assert (G : fine (fun _ => True) is_main (handle s d)); [|apply G].
  assert (HP : forall p k v s, True -> fine (fun _ => True) is_main (property p k v s)) by (intros; apply fine_property; auto).
  assert (HB : forall p b s, True -> fine (fun _ => True) is_main (set_border p b s)) by (intros; apply fine_border; auto).
  assert (HL : forall i v s, True -> fine (fun _ => True) is_main (image_loses V R veq compat i v s)) by (intros; apply fine_loses; auto).
  destruct d as [p k v|p b|a k x y|a b|k t r b l|b|i v|a b c d e|i u]; cbn [BorderModel.handle]; auto.
  - apply fine_then; auto.
  - apply fine_then; auto.
  - apply fine_then; [|intros; apply fine_id; exact I]. do 3 (apply fine_then; [|intros; apply HP; exact I]). apply HP. exact I.
  - apply fine_id. exact I.
  - apply fine_then; [|intros; apply fine_id; exact I]. apply fine_then; [|intros; apply HL; exact I]. apply fine_then; [apply fine_if; auto|].
    intros s' _. destruct (image_prefix V s'); [apply fine_id; exact I|apply HI; exact I].
  - apply fine_then; [|intros; apply fine_id; exact I]. do 4 (apply fine_then; [|intros; apply HL; exact I]). apply HL. exact I.
  - destruct (is_image i).
    + apply fine_then; [apply fine_then; auto|]. intros. split; [exact I|repeat constructor].
    + apply fine_then; [auto|]. intros s' _. pose proof (raw_main (done V s') i u (or_introl E)) as Hr. destruct (push_raw V R ls (done V s') i u). split; [exact I|exact Hr].
Qed.
Lemma then_snd p (f : state -> state * list event) : snd (then_ p f) = snd p ++ snd (f (fst p)).
Proof. unfold BorderModel.then_. destruct p as [s e]. cbn [fst snd]. destruct (f s). reflexivity. Qed.
Lemma supported_main c l : ls = true -> Forall is_main (minify c l).
Proof.
  intros E. unfold BorderModel.minify. rewrite !then_snd, !Forall_app. repeat split.
  - generalize (start V c). induction l as [|d l IH]; intros s; [constructor|]. cbn [BorderModel.handle_all]. rewrite then_snd, Forall_app. split; [apply supported_step; exact E|apply IH].
  - apply flush_main. left. exact E.
  - apply image_main.
Qed.

(** ** Compiled *)
Definition Jpre (s : state) : Prop := no_logical s /\ image_any V s = false.
Lemma pre_step s d : physical d -> Jpre s -> fine Jpre is_main (handle s d).
Proof.
  intros Hd H.
  assert (HF : forall s, Jpre s -> fine Jpre is_main (flush s)).
  { intros s' [A B]. split; [|apply flush_main; right; exact A]. split; [apply flush_slots; exact A|]. destruct (flush_fields s') as (_ & -> & _). exact B. }
  assert (HP : forall x k v s, Jpre s -> fine Jpre is_main (property (P x) k v s)).
  { intros x k v s' H'. apply fine_property; [exact HF|exact H'|]. intros s2 [A B]. split; [intros l j; apply A|exact B]. }
  assert (HB : forall x b s, Jpre s -> fine Jpre is_main (set_border (P x) b s)).
  { intros x b s' H'. apply fine_border; [exact HF|exact H'|]. intros s2 [A B]. split; [intros l j; apply A|exact B]. }
  destruct d as [[x|x] k v|[x|x] b|a k x y|a b|k t r b l|b|i v|a b c d e|i u]; cbn in Hd; try contradiction; cbn [BorderModel.handle]; auto.
  - apply fine_then; [do 3 (apply fine_then; [|intros; apply HP; assumption]); apply HP; exact H|].
    intros s' [A B]. apply fine_id. split; [|exact B]. intros l' j. cbn. unfold set_key. rewrite A. destruct (key_eqb k j); reflexivity.
  - apply fine_id. split; [intros l j; reflexivity|]. apply H.
  - destruct (is_image i) eqn:Ei; [destruct i; try discriminate Ei; contradiction|]. apply fine_then; [apply HF; exact H|]. intros s' H'.
    assert (Hr : Forall is_main (snd (push_raw V R ls (done V s') i u))) by (apply raw_main; right; exact Hd).
    destruct (push_raw V R ls (done V s') i u). split; [exact H'|exact Hr].
Qed.
Lemma pre_steps l : forall s, Forall physical l -> Jpre s -> fine Jpre is_main (handle_all s l).
Proof.
  induction l as [|d l IH]; intros s Hl H; [apply fine_id; exact H|]. inversion Hl; subst. cbn [BorderModel.handle_all].
  destruct (pre_step s d H2 H) as [A B]. destruct (IH _ H3 A) as [A' B']. split; [rewrite then_fst; exact A'|]. rewrite then_snd, Forall_app. split; assumption.
Qed.
(** Once the category is logical, nothing is pushed *)
Definition Jpost (s : state) : Prop := cat V s = Logical /\ image_any V s = false.
Definition silent (s : state) (p : state * list event) : Prop := Jpost (fst p) /\ snd p = [].
Lemma silent_property l k v s : compat v = true -> Jpost s -> silent s (property (L l) k v s).
Proof.
  intros Hv [H1 H2]. unfold BorderModel.property, flush_if. rewrite H1. cbn [category_of cat_eqb negb]. unfold silent. rewrite !then_fst, !then_snd. cbn [fst snd].
  assert (N : loses V veq compat (slot_of V s (L l) k) v = false).
  { unfold loses. destruct (slot_of V s (L l) k); [|reflexivity]. rewrite Hv. apply andb_false_r. }
  rewrite N. cbn. repeat split. exact H2.
Qed.
Lemma silent_border l b s : Jpost s -> silent s (set_border (L l) b s).
Proof.
  intros [H1 H2]. unfold BorderModel.set_border, flush_if. rewrite H1. cbn [category_of cat_eqb negb]. unfold silent. rewrite !then_fst, !then_snd. cbn. repeat split. exact H2.
Qed.
Lemma silent_then s p f : silent s p -> (forall s, Jpost s -> silent s (f s)) -> silent s (then_ p f).
Proof.
  intros [A B] H. destruct (H _ A) as [A' B']. unfold silent. rewrite then_fst, then_snd, B, B'. split; [exact A'|reflexivity].
Qed.
Lemma silent_step s d : logical compat d -> Jpost s -> silent s (handle s d).
Proof.
  intros Hd H. destruct d as [[x|x] k v|[x|x] b|a k x y|a b|k t r b l|b|i v|a b c d e|i u]; cbn in Hd; try contradiction; cbn [BorderModel.handle].
  - apply silent_property; assumption.
  - apply silent_border; assumption.
  - destruct Hd as [H1 H2]. apply silent_then; [apply silent_property; assumption|]. intros; apply silent_property; assumption.
  - apply silent_then; [apply silent_border; assumption|]. intros; apply silent_border; assumption.
Qed.
Lemma silent_steps l : forall s, Forall (logical compat) l -> Jpost s -> silent s (handle_all s l).
Proof.
  induction l as [|d l IH]; intros s Hl H; [split; [exact H|reflexivity]|]. inversion Hl; subst. cbn [BorderModel.handle_all].
  apply silent_then; [apply silent_step; assumption|]. intros; apply IH; assumption.
Qed.
(** The first logical declaration *)
Lemma first_property l k v s : compat v = true -> Jpre s -> Jpost (fst (property (L l) k v s)) /\ Forall is_main (snd (property (L l) k v s)).
Proof.
  intros Hv [H1 H2]. unfold BorderModel.property, flush_if. rewrite !then_fst, !then_snd. cbn [fst snd]. rewrite app_nil_r.
  set (b := negb (cat_eqb (category_of (L l)) (cat V s))). set (p := if b then flush s else (s, [])).
  assert (A : no_logical (fst p) /\ image_any V (fst p) = false /\ Forall is_main (snd p)).
  { unfold p. destruct b; [|split; [exact H1|split; [exact H2|constructor]]]. split; [apply flush_slots; exact H1|]. destruct (flush_fields s) as (_ & -> & _).
    split; [exact H2|apply flush_main; right; exact H1]. }
  destruct A as (A1 & A2 & A3).
  assert (N : loses V veq compat (slot_of V (fst p) (L l) k) v = false) by (rewrite A1; reflexivity).
  rewrite N. cbn [fst snd]. rewrite app_nil_r. split; [split; [reflexivity|exact A2]|exact A3].
Qed.
Lemma first_border l b s : Jpre s -> Jpost (fst (set_border (L l) b s)) /\ Forall is_main (snd (set_border (L l) b s)).
Proof.
  intros [H1 H2]. unfold BorderModel.set_border, flush_if. rewrite !then_fst, !then_snd. cbn [fst snd]. rewrite app_nil_r.
  set (c := negb (cat_eqb (category_of (L l)) (cat V s))). destruct c; cbn [fst snd].
  - split; [split; [reflexivity|]|apply flush_main; right; exact H1]. cbn. destruct (flush_fields s) as (_ & -> & _). exact H2.
  - split; [split; [reflexivity|exact H2]|constructor].
Qed.
Lemma first_step s d : logical compat d -> Jpre s -> Jpost (fst (handle s d)) /\ Forall is_main (snd (handle s d)).
Proof.
  intros Hd H. destruct d as [[x|x] k v|[x|x] b|a k x y|a b|k t r b l|b|i v|a b c d e|i u]; cbn in Hd; try contradiction; cbn [BorderModel.handle].
  - apply first_property; assumption.
  - apply first_border; assumption.
  - destruct Hd as [H1 H2]. destruct (first_property (start_of a) k x s H1 H) as [A B]. destruct (silent_property (end_of a) k y _ H2 A) as [A' B'].
    rewrite then_fst, then_snd, B', app_nil_r. split; assumption.
  - destruct (first_border (start_of a) b s H) as [A B]. destruct (silent_border (end_of a) b _ A) as [A' B'].
    rewrite then_fst, then_snd, B', app_nil_r. split; assumption.
Qed.
Lemma handle_all_app l : forall k s, handle_all s (l ++ k) = then_ (handle_all s l) (fun s => handle_all s k).
Proof.
  induction l as [|d l IH]; intros k s; cbn [app BorderModel.handle_all].
  - unfold BorderModel.then_. destruct (handle_all s k). reflexivity.
  - unfold BorderModel.then_ at 1 3. destruct (handle s d) as [s1 e1]. rewrite IH. unfold BorderModel.then_.
    destruct (handle_all s1 l) as [s2 e2]. destruct (handle_all s2 k) as [s3 e3]. rewrite app_assoc. reflexivity.
Qed.
Lemma compiled_sorted c pre post : ls = false -> Forall physical pre -> Forall (logical compat) post -> sorted (minify c (pre ++ post)).
Proof.
  intros E Hpre Hpost. unfold BorderModel.minify. rewrite handle_all_app. rewrite !then_snd, !then_fst.
  assert (S : Jpre (start V c)) by (split; [intros l k; reflexivity|reflexivity]).
  destruct (pre_steps pre _ Hpre S) as [A B]. set (s1 := fst (handle_all (start V c) pre)) in *. set (e1 := snd (handle_all (start V c) pre)) in *.
  assert (P : image_any V (fst (handle_all s1 post)) = false /\ Forall is_main (snd (handle_all s1 post))).
  { destruct post as [|d post]; [split; [apply A|constructor]|]. pose proof (Forall_inv Hpost) as H1. pose proof (Forall_inv_tail Hpost) as H2. cbn [BorderModel.handle_all]. rewrite then_fst, then_snd.
    destruct (first_step s1 d H1 A) as [A' B']. destruct (silent_steps post _ H2 A') as [[_ A''] B'']. rewrite B'', app_nil_r. split; assumption. }
  destruct P as [P1 P2]. unfold image_flush. destruct (flush_fields (fst (handle_all s1 post))) as (_ & -> & _). rewrite P1. cbn [snd]. rewrite app_nil_r.
  rewrite <- app_assoc. apply main_sorted; [exact B|]. apply main_sorted; [exact P2|]. apply flush_sorted. exact E.
Qed.

(** ** Images *)
Variable w : writing_mode.
Definition pending (i : ikey) (v : V) (s : state) : Prop := image V s i = Some v /\ image_any V s = true /\ image_prefix V s = true.
Lemma pending_any i v : forall s, pending i v s -> fine (pending i v) (fun _ => True) (flush s).
Proof.
  intros s (A & B & C). split; [|apply Forall_forall; auto]. destruct (flush_fields s) as (E1 & E2 & E3 & _). unfold pending. rewrite E1, E2, E3. auto.
Qed.
Lemma pending_step i v s d : plain_image compat d -> gives mean w d (TI i) = None -> pending i v s -> pending i v (fst (handle s d)).
Proof.
  intros Hd Hg H. pose proof (pending_any i v) as HF.
  assert (HP : forall p k x s, pending i v s -> fine (pending i v) (fun _ => True) (property p k x s)).
  { intros p k x s' H'. apply fine_property; [exact HF|exact H'|]. intros s2 H2. exact H2. }
  assert (HB : forall p b s, pending i v s -> fine (pending i v) (fun _ => True) (set_border p b s)).
  { intros p b s' H'. apply fine_border; [exact HF|exact H'|]. intros s2 H2. exact H2. }
  assert (G : fine (pending i v) (fun _ => True) (handle s d)); [|apply G].
  destruct d as [p k x|p b|a k x y|a b|k t r b l|b|j x|a b c d e|j u]; cbn [BorderModel.handle]; auto.
  - apply fine_then; auto.
  - apply fine_then; auto.
  - apply fine_then; [do 3 (apply fine_then; [|intros; apply HP; assumption]); apply HP; exact H|]. intros s' H'. apply fine_id. exact H'.
  - discriminate Hg.
  - destruct H as (A & B & C). unfold flush_if, image_loses. cbn in Hd.
    assert (N : forall o, loses V veq compat o x = false) by (intros [o|]; [|reflexivity]; unfold loses; rewrite Hd; apply andb_false_r).
    split; [|apply Forall_forall; auto]. rewrite !then_fst, C. cbn [negb fst]. rewrite C. cbn [fst]. rewrite N. cbn [fst]. unfold pending, set_image. cbn.
    cbn in Hg. destruct (ikey_eqb j i); [discriminate Hg|]. auto.
  - discriminate Hg.
  - cbn in Hd. rewrite Hd. apply fine_then; [apply HF; exact H|]. intros s' H'. destruct (push_raw V R ls (done V s') j u). split; [exact H'|apply Forall_forall; auto].
Qed.
Lemma pending_steps i v l : forall s, Forall (plain_image compat) l -> (forall d, In d l -> gives mean w d (TI i) = None) -> pending i v s -> pending i v (fst (handle_all s l)).
Proof.
  induction l as [|d l IH]; intros s Hl Hg H; [exact H|]. inversion Hl; subst. cbn [BorderModel.handle_all]. rewrite then_fst. apply IH; [assumption| |].
  - intros d' Hd'. apply Hg. right. exact Hd'.
  - apply pending_step; [assumption|apply Hg; left; reflexivity|exact H].
Qed.
Lemma pending_used i v s e : pending i v s -> give_all V R M mean w (mains (snd (image_flush V R s))) e (TI i) = Some (CVal (mean v)).
Proof.
  intros (A & B & _). unfold image_flush. rewrite B. cbn [snd].
  assert (E : forall l : list decl, mains (map Main l) = l) by (induction l as [|d l IH]; [reflexivity|cbn; f_equal; exact IH]).
  rewrite E. clear E. unfold image_props. destruct (image V s Source) eqn:E1, (image V s Slice) eqn:E2, (image V s ImageWidth) eqn:E3, (image V s Outset) eqn:E4, (image V s Repeat) eqn:E5;
    destruct i; try congruence; cbn; congruence.
Qed.
Lemma set_pending i v s (d : decl) :
  match d with
  | DImageOne j x => i = j /\ v = x
  | DImage a b c d e => v = match i with Source => a | Slice => b | ImageWidth => c | Outset => d | Repeat => e end
  | _ => False
  end -> pending i v (fst (handle s d)).
Proof.
  destruct d as [p k x|p b|a k x y|a b|k t r b l|b|j x|a b c d e|j u]; cbn [BorderModel.handle]; try (intros []; fail).
  - intros [-> ->]. rewrite then_fst. cbn [fst]. unfold pending. cbn. rewrite ikey_refl. auto.
  - intros ->. rewrite then_fst. cbn [fst]. unfold pending. cbn. auto.
Qed.
Theorem image_used c l i v e : Forall (plain_image compat) l -> last_image mean w l i v ->
  give_all V R M mean w (mains (minify c l)) e (TI i) = Some (CVal (mean v)).
Proof.
  intros Hl (l1 & d & l2 & -> & Hg & Hd). unfold BorderModel.minify. rewrite handle_all_app. rewrite then_snd, mains_app, give_all_app.
  apply pending_used. rewrite !then_fst. cbn [BorderModel.handle_all]. rewrite then_fst. apply (pending_any i v). apply pending_steps.
  - apply Forall_app in Hl. destruct Hl as [_ Hl]. inversion Hl; subst. assumption.
  - exact Hg.
  - apply set_pending. exact Hd.
Qed.
End Proofs.

Section Used.
Variable V R M : Type.
Variable mean : V -> M.
Variable veq : V -> V -> bool.
Variable compat : V -> bool.
Variable fb : list V -> list (list V) * list V.
Hypothesis veq_mean : forall a b, veq a b = true -> mean a = mean b.
Hypothesis fb_honest : honest mean fb.
Lemma used_app w l k : forall o t, used_from mean w (l ++ k) o t = used_from mean w k (used_from mean w l o t) t :> option (cell R M).
Proof. induction l as [|d l IH]; intros o t; [reflexivity|]. cbn [app used_from]. apply IH. Qed.
Theorem supported_used (ss : bool) w c l o x k : proper w -> ss = true \/ is_horizontal w ->
  let out := minify V R veq compat fb true ss c l in
  used_from mean w (mains out) o (T x k) = used_from mean w l o (T x k) /\ forall rtl, dirs rtl out = [].
Proof.
  intros Hp Hs out. assert (Hm := supported_main V R veq compat fb true ss c l eq_refl). fold out in Hm.
  assert (Hr : exists rtl, (true = true /\ ss = true) \/ w = horizontal rtl) by (destruct Hs as [Hs|[rtl Hs]]; [exists false; auto|exists rtl; auto]).
  destruct Hr as [rtl Hr]. split; [|intros r; apply (main_seen V R r); exact Hm].
  destruct (main_seen V R rtl out Hm) as [-> _].
  change o with ((fun _ => o) (T x k)) at 1. rewrite (used_give V R M mean w). change o with ((fun _ => o) (T x k)) at 2. rewrite (used_give V R M mean w).
  apply (trace_used V R M mean veq compat fb true ss w rtl veq_mean fb_honest Hp Hr).
Qed.
Theorem block_used (ss : bool) w c ci normal important o x k : proper w -> ss = true \/ is_horizontal w ->
  let out := minify V R veq compat fb true ss c normal in
  let out' := minify V R veq compat fb true ss ci important in
  used_from mean w (mains out ++ mains out') o (T x k) = used_from mean w (normal ++ important) o (T x k) /\ forall rtl, dirs rtl (out ++ out') = [].
Proof.
  intros Hp Hs out out'. destruct (supported_used ss w c normal o x k Hp Hs) as [A1 A2].
  destruct (supported_used ss w ci important (used_from mean w normal o (T x k)) x k Hp Hs) as [B1 B2]. fold out in A1, A2. fold out' in B1, B2.
  split; [rewrite !used_app, A1; exact B1|]. intros rtl. rewrite dirs_app, A2, B2. reflexivity.
Qed.
Theorem compiled_used (ss rtl : bool) c pre post o x k : Forall physical pre -> Forall (logical compat) post ->
  let out := minify V R veq compat fb false ss c (pre ++ post) in
  used_from mean (horizontal rtl) (mains out ++ dirs rtl out) o (T x k) = used_from mean (horizontal rtl) (pre ++ post) o (T x k).
Proof.
  intros H1 H2 out. pose proof (compiled_sorted V R veq compat fb false ss c pre post eq_refl H1 H2) as S. fold out in S.
  rewrite (sorted_seen V R rtl out S).
  change o with ((fun _ => o) (T x k)) at 1. rewrite (used_give V R M mean). change o with ((fun _ => o) (T x k)) at 2. rewrite (used_give V R M mean).
  apply (trace_used V R M mean veq compat fb false ss (horizontal rtl) rtl veq_mean fb_honest (horizontal_proper rtl) (or_intror eq_refl)).
Qed.
Theorem images_used (ls ss : bool) w c l i v o : Forall (plain_image compat) l -> last_image mean w l i v ->
  used_from mean w (mains (minify V R veq compat fb ls ss c l)) o (TI i) = Some (CVal (mean v)).
Proof.
  intros H1 H2. change o with ((fun _ => o) (TI i)). rewrite (used_give V R M mean). apply (image_used V R M mean veq compat fb ls ss w c l i v); assumption.
Qed.
End Used.
