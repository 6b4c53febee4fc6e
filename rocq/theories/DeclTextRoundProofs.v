(** * Whole declaration blocks: printing and reading again *)
From Coq Require Import List Bool String Arith Lia.
From Verif Require Import MediaModel VendorPrefixModel PropertyTable SupportsSpec SupportsProofs SupportsParseProofs
  SupportsMeaningProofs DeclTextModel DeclTextSpec DeclTextProofs DeclTextBlockProofs.
Import ListNotations.
Local Open Scope string_scope.
Local Open Scope list_scope.

Lemma vs_iter_single q : vs_iter (vs_one q) = [q].
Proof. destruct q; reflexivity. Qed.
Lemma vs_iter_or p q : In q (vs_iter p) -> In q (vs_iter (vs_or_none p)).
Proof.
  unfold vs_or_none. destruct (vs_is_empty p) eqn:E; [|auto]. destruct p as [[] [] [] [] []]; try discriminate E. intros [].
Qed.
Lemma loose_cons_inv t r : loose (t :: r) -> loose r.
Proof. intros H. inversion H; subst; [constructor | assumption]. Qed.

Section Values.
Variable V : Type.
Variable parse_typed : string -> list tk -> option V.
Variable print_typed : bool -> string -> V -> list tk.
Notation stmt := (stmt V print_typed).
Notation print_decl := (print_decl V print_typed).
Notation print_all := (print_all V print_typed).
Notation print_lines := (print_lines V print_typed).
Notation printable := (printable V parse_typed print_typed).
Notation printable_block := (printable_block V parse_typed print_typed).
Notation item_of := (item_of V parse_typed).
Notation each_prefix := (each_prefix V).
Notation written_name := (written_name V).
Notation to_write := (to_write V).
Notation parse_block := (parse_block V parse_typed).

(** ** The statements of a block *)
Definition sstmt (m : bool) (x : decl V * bool) : list tk := stmt m (written_name (fst x)) (fst x) (snd x).
Definition expand (x : decl V * bool) : list (decl V * bool) := map (fun e => (e, snd x)) (each_prefix (fst x)).

Lemma print_decl_stmts m indent d important :
  print_decl m indent d important = join (KSemi :: line m indent) (map (sstmt m) (expand (d, important))).
Proof.
  unfold expand, sstmt. cbn [fst snd]. rewrite map_map. cbn [fst snd].
  destruct d as [i v|i v|n v]; cbn [DeclTextModel.print_decl DeclTextSpec.each_prefix].
  - destruct i as [n p|n| |n]; cbn [decl_prefixes decl_id pid_prefix pid_name map]; [|reflexivity..].
    rewrite map_map. f_equal. apply map_ext. intros q. unfold DeclTextSpec.written_name, DeclTextBlockProofs.stmt. cbn [decl_id]. rewrite vs_iter_single. reflexivity.
  - destruct i as [n p|n| |n]; cbn [decl_prefixes decl_id pid_prefix pid_name map]; [|reflexivity..].
    rewrite map_map. f_equal. apply map_ext. intros q. unfold DeclTextSpec.written_name, DeclTextBlockProofs.stmt. cbn [decl_id]. rewrite vs_iter_single. reflexivity.
  - reflexivity.
Qed.

Lemma line_gap m indent : gap (line m indent).
Proof. destruct m; [left; reflexivity | right; eexists; reflexivity]. Qed.
Lemma spells_join m indent xs : Forall statement xs -> forall a r rs, gap a -> spells r rs ->
  spells (a ++ join (KSemi :: line m indent) xs ++ KSemi :: r) (xs ++ rs).
Proof.
  induction 1 as [|x xs Hx Hxs IH]; intros a r rs Ha Hr; [apply spells_semi; assumption|].
  destruct xs as [|y xs]; [apply spells_cons; assumption|].
  change (join (KSemi :: line m indent) (x :: y :: xs)) with (x ++ (KSemi :: line m indent) ++ join (KSemi :: line m indent) (y :: xs)).
  rewrite <- !app_assoc. cbn [app]. change ((x :: y :: xs) ++ rs) with (x :: ((y :: xs) ++ rs)).
  apply spells_cons; [exact Ha | exact Hx|]. apply IH; [apply line_gap | exact Hr].
Qed.
Lemma spells_join_end m indent xs : Forall statement xs -> forall a, gap a -> spells (a ++ join (KSemi :: line m indent) xs) xs.
Proof.
  induction 1 as [|x xs Hx Hxs IH]; intros a Ha; [cbn [join]; rewrite app_nil_r; apply spells_nil; exact Ha|].
  destruct xs as [|y xs]; [apply spells_last; assumption|].
  change (join (KSemi :: line m indent) (x :: y :: xs)) with (x ++ (KSemi :: line m indent) ++ join (KSemi :: line m indent) (y :: xs)).
  cbn [app]. apply spells_cons; [exact Ha | exact Hx|]. apply IH. apply line_gap.
Qed.

Definition ok (m : bool) (x : decl V * bool) : Prop := Forall statement (map (sstmt m) (expand x)).
Definition stmts (m : bool) (l : list (decl V * bool)) : list (list tk) := map (sstmt m) (flat_map expand l).
Lemma stmts_cons m x l : stmts m (x :: l) = map (sstmt m) (expand x) ++ stmts m l.
Proof. unfold stmts. cbn [flat_map]. apply map_app. Qed.

Lemma spells_all m indent len l : Forall (ok m) l -> forall i a, i + List.length l = len -> gap a ->
  spells (a ++ print_all m indent len i l) (stmts m l).
Proof.
  induction 1 as [|[d important] l Hx Hl IH]; intros i a Hi Ha.
  - cbn [DeclTextModel.print_all]. rewrite app_nil_r. apply spells_nil. exact Ha.
  - cbn [DeclTextModel.print_all]. rewrite stmts_cons, print_decl_stmts. cbn [List.length] in Hi. destruct l as [|y l].
    + replace (Nat.eqb i (len - 1)) with true by (symmetry; apply Nat.eqb_eq; cbn [List.length] in Hi; lia).
      cbn [DeclTextModel.print_all app]. rewrite app_nil_r. change (stmts m []) with (@nil (list tk)). rewrite app_nil_r.
      apply spells_join_end; assumption.
    + replace (Nat.eqb i (len - 1)) with false by (symmetry; apply Nat.eqb_neq; cbn [List.length] in Hi; lia).
      cbn [app]. apply spells_join; [exact Hx | exact Ha|]. apply IH; [lia | apply ws_gap].
Qed.

(** Lines *)
Definition shown (modules : bool) (l : list (decl V * bool)) : list (decl V * bool) :=
  filter (fun x => negb (modules && is_composes V (fst x))) l.
Lemma spells_lines m modules nested indent len l : Forall (ok m) l -> forall i a c, i + List.length l <= len ->
  gap a -> (0 < i -> a = []) -> gap c -> (c = [] \/ m = false) -> (shown modules l = [] -> gap (a ++ c)) ->
  spells (a ++ print_lines m modules nested indent len i l ++ c) (stmts m (shown modules l)).
Proof.
  induction 1 as [|[d important] l Hx Hl IH]; intros i a c Hi Ha Hia Hc Hm Hn.
  - cbn [DeclTextModel.print_lines app]. apply spells_nil. exact (Hn eq_refl).
  - cbn [DeclTextModel.print_lines shown filter fst] in *. fold (shown modules l) in *. cbn [List.length] in Hi.
    destruct (modules && is_composes V d) eqn:E; cbn [negb] in *.
    + apply IH; try assumption. lia.
    + rewrite stmts_cons. rewrite print_decl_stmts. rewrite <- !app_assoc.
      assert (Ha' : gap (a ++ (if Nat.ltb 0 i then line m indent else []))).
      { destruct (Nat.ltb 0 i) eqn:L; [apply Nat.ltb_lt in L; rewrite (Hia L); apply line_gap | rewrite app_nil_r; exact Ha]. }
      rewrite (app_assoc a). destruct (negb (Nat.eqb i (len - 1)) || negb m || nested) eqn:Z.
      * cbn [app]. apply spells_join; [exact Hx | exact Ha'|]. apply (IH (S i) [] c); try assumption; [lia | left; reflexivity | reflexivity|].
        intros _. exact Hc.
      * apply orb_false_elim in Z. destruct Z as [Z1 Z2]. apply orb_false_elim in Z1. destruct Z1 as [Z1 Z3].
        apply negb_false_iff in Z1. apply Nat.eqb_eq in Z1. apply negb_false_iff in Z3.
        assert (l = []) as -> by (destruct l; [reflexivity | cbn [List.length] in Hi; lia]).
        destruct Hm as [-> | ->]; [|discriminate Z3]. cbn [DeclTextModel.print_lines app]. rewrite app_nil_r.
        change (stmts m (shown modules [])) with (@nil (list tk)). rewrite app_nil_r. apply spells_join_end; assumption.
Qed.

(** ** Every statement is read as its declaration *)
Lemma each_printable m d important e : printable m d important -> In e (each_prefix d) ->
  printable m e important /\ pid_from property_table (written_name e) = decl_id V e.
Proof.
  intros [K [L P]] H. unfold DeclTextSpec.written_name.
  assert (Base : e = d -> (forall n p, decl_id V d <> PVp n p) ->
            printable m e important /\ pid_from property_table (match decl_id V e with PVp n p => match vs_iter p with q :: _ => (pfx_text q ++ n)%string | [] => n end | i => pid_name i end) = decl_id V e).
  { intros -> N. split; [split; [exact K | split; [exact L | exact P]]|]. destruct (decl_id V d) as [n p|n| |n]; [exfalso; exact (N n p eq_refl)| | |]; exact K. }
  destruct d as [i v|i v|n v]; cbn [DeclTextSpec.each_prefix decl_id] in *.
  - destruct i as [n p|n| |n]; [|destruct H as [<-|[]]; apply Base; [reflexivity | discriminate]..].
    apply in_map_iff in H. destruct H as [q [<- Hq]]. cbn [decl_id]. rewrite vs_iter_single.
    pose proof (K q (vs_iter_or p q Hq)) as Kq. split; [|exact Kq]. split; [|split; [exact L|]].
    + cbn [decl_id known]. intros q' H'. rewrite vs_iter_one in H'. destruct H' as [<-|[]]. exact Kq.
    + destruct P as [P _]. split; [exact P | discriminate].
  - destruct i as [n p|n| |n]; [|destruct H as [<-|[]]; apply Base; [reflexivity | discriminate]..].
    apply in_map_iff in H. destruct H as [q [<- Hq]]. cbn [decl_id]. rewrite vs_iter_single.
    pose proof (K q Hq) as Kq. split; [|exact Kq]. split; [|split; [exact L|]].
    + cbn [decl_id known]. intros q' H'. rewrite vs_iter_one in H'. destruct H' as [<-|[]]. exact Kq.
    + destruct P as [P1 [P2 [P3 [P4 [P5 _]]]]]. repeat (split; [assumption|]). split; discriminate.
  - destruct H as [<-|[]]. apply Base; [reflexivity | discriminate].
Qed.
Lemma printable_holds m d important : printable m d important ->
  holds_value V parse_typed print_typed m (decl_id V d) d important (as_read V m d).
Proof.
  intros H. destruct d as [i v|i v|n v].
  - destruct H as [_ [_ [P N]]]. apply typed_value; assumption.
  - apply unparsed_value. exact H.
  - apply custom_value. exact H.
Qed.
Lemma printable_ok m d important : printable m d important -> ok m (d, important).
Proof.
  intros H. unfold ok, expand. rewrite map_map. apply Forall_forall. intros s Hs. apply in_map_iff in Hs. destruct Hs as [e [<- He]].
  destruct (each_printable m d important e H He) as [Pe Ne]. unfold sstmt. cbn [fst snd].
  exact (stmt_statement V parse_typed print_typed m _ _ _ _ _ (printable_holds m e important Pe)).
Qed.
Lemma printable_items m l : (forall d important, In (d, important) l -> printable m d important) ->
  map item_of (stmts m l) = map (fun x => Some (as_read V m (fst x), snd x)) (flat_map expand l).
Proof.
  intros H. unfold stmts. rewrite map_map. apply map_ext_in. intros [e important] He. apply in_flat_map in He.
  destruct He as [[d im] [Hd He]]. unfold expand in He. apply in_map_iff in He. destruct He as [e' [E He]]. cbn [fst snd] in *. injection E as -> ->.
  destruct (each_printable m d important e (H d important Hd) He) as [Pe Ne]. unfold sstmt. cbn [fst snd].
  exact (stmt_item V parse_typed print_typed m _ _ _ _ _ Ne (printable_holds m e important Pe)).
Qed.

(** ** Collecting *)
Lemma collect_some rec l : collect V rec (map (@Some _) l)
  = Some (DBlock (map fst (filter (fun x => snd x) l)) (map fst (filter (fun x => negb (snd x)) l))).
Proof.
  induction l as [|[d []] r IH]; [reflexivity| |]; cbn [map collect]; rewrite IH; cbn [filter snd negb map fst d_important d_normal]; reflexivity.
Qed.
Lemma filter_all {A} (f : A -> bool) l : (forall x, In x l -> f x = true) -> filter f l = l.
Proof. induction l as [|x r IH]; intros H; [reflexivity|]. cbn [filter]. rewrite (H x (or_introl eq_refl)), IH; [reflexivity|]. intros y Hy. apply H. right. exact Hy. Qed.
Lemma filter_none {A} (f : A -> bool) l : (forall x, In x l -> f x = false) -> filter f l = [].
Proof. induction l as [|x r IH]; intros H; [reflexivity|]. cbn [filter]. rewrite (H x (or_introl eq_refl)). apply IH. intros y Hy. apply H. right. exact Hy. Qed.
Lemma flat_expand f l : flat_map expand (map (fun d => (d, f)) l) = map (fun d => (d, f)) (flat_map each_prefix l).
Proof. induction l as [|x r IH]; [reflexivity|]. cbn [map flat_map]. rewrite IH, map_app. reflexivity. Qed.
Lemma expand_in_order b : flat_map expand (in_order V b) = to_write b.
Proof. unfold in_order, DeclTextSpec.to_write. rewrite flat_map_app, !flat_expand. reflexivity. Qed.
Lemma collect_block rec m b : collect V rec (map (fun x => Some (as_read V m (fst x), snd x)) (to_write b)) = Some (written V m b).
Proof.
  rewrite <- (map_map (fun x => (as_read V m (fst x), snd x)) (@Some _)), collect_some. unfold DeclTextSpec.to_write, written.
  rewrite map_app, !map_map. cbn [fst snd]. rewrite !filter_app, !map_app.
  rewrite (filter_none (fun x => snd x) (map (fun x => (as_read V m x, false)) _));
    [|intros x Hx; apply in_map_iff in Hx; destruct Hx as [y [<- _]]; reflexivity].
  rewrite (filter_all (fun x => snd x) (map (fun x => (as_read V m x, true)) _));
    [|intros x Hx; apply in_map_iff in Hx; destruct Hx as [y [<- _]]; reflexivity].
  rewrite (filter_all (fun x => negb (snd x)) (map (fun x => (as_read V m x, false)) _));
    [|intros x Hx; apply in_map_iff in Hx; destruct Hx as [y [<- _]]; reflexivity].
  rewrite (filter_none (fun x => negb (snd x)) (map (fun x => (as_read V m x, true)) _));
    [|intros x Hx; apply in_map_iff in Hx; destruct Hx as [y [<- _]]; reflexivity].
  cbn [map app]. rewrite app_nil_r, !map_map. reflexivity.
Qed.

(** ** Round trips *)
Lemma block_items m b d important : printable_block m b -> In (d, important) (in_order V b) -> printable m d important.
Proof.
  intros [H1 H2] H. unfold in_order in H. apply in_app_or in H.
  destruct H as [H|H]; apply in_map_iff in H; destruct H as [x [E Hx]]; injection E as <- <-; auto.
Qed.
Lemma block_ok m b : printable_block m b -> Forall (ok m) (in_order V b).
Proof. intros H. apply Forall_forall. intros [d important] Hd. apply printable_ok. exact (block_items m b d important H Hd). Qed.
Lemma in_order_length b : List.length (in_order V b) = dlen V b.
Proof. unfold in_order, dlen. rewrite app_length, !map_length. reflexivity. Qed.
Lemma print_spells m indent b : printable_block m b -> spells (print_block V print_typed m indent b) (stmts m (in_order V b)).
Proof.
  intros H. apply (spells_all m indent (dlen V b) (in_order V b) (block_ok m b H) 0 []); [apply in_order_length | left; reflexivity].
Qed.
Lemma spelled rec l m b : spells l (stmts m (in_order V b)) -> printable_block m b -> parse_block rec l = Some (written V m b).
Proof.
  intros Sp H. unfold DeclTextModel.parse_block. rewrite (spells_glue _ _ Sp).
  change (DeclTextModel.items V parse_typed (S (List.length l)) l) with (its V parse_typed l).
  rewrite (spells_items V parse_typed _ _ Sp). rewrite printable_items; [|intros d i Hd; exact (block_items m b d i H Hd)].
  rewrite expand_in_order. apply collect_block.
Qed.
Theorem print_reads rec m indent b : printable_block m b ->
  parse_block rec (print_block V print_typed m indent b) = Some (written V m b).
Proof. intros H. apply spelled; [apply print_spells; exact H | exact H]. Qed.

Definition hide (modules : bool) (b : dblock V) : dblock V := if modules then without_composes V b else b.
Lemma shown_order modules b : shown modules (in_order V b) = in_order V (hide modules b).
Proof.
  unfold shown, in_order, hide. destruct modules; cbn [andb negb].
  - rewrite filter_app. unfold without_composes. cbn [d_normal d_important].
    f_equal; [induction (d_normal b) as [|x r IH] | induction (d_important b) as [|x r IH]]; try reflexivity; cbn [map filter fst];
      destruct (is_composes V x); cbn [negb map]; rewrite IH; reflexivity.
  - apply filter_all. reflexivity.
Qed.
Lemma hide_printable modules m b : printable_block m b -> printable_block m (hide modules b).
Proof.
  intros [H1 H2]. destruct modules; [|split; assumption]. split; intros d Hd; cbn [hide without_composes d_normal d_important] in Hd;
    apply filter_In in Hd; destruct Hd as [Hd _]; auto.
Qed.
Lemma lines_spell m modules nested indent b : printable_block m b ->
  spells (print_declarations V print_typed m modules nested indent b) (stmts m (in_order V (hide modules b))).
Proof.
  intros H. unfold print_declarations. rewrite <- shown_order.
  pose proof (spells_lines m modules nested indent (dlen V b) (in_order V b) (block_ok m b H) 0 [] []) as S.
  cbn [app] in S. rewrite app_nil_r in S. apply S.
  - rewrite in_order_length. cbn. lia.
  - left. reflexivity.
  - lia.
  - left. reflexivity.
  - left. reflexivity.
  - intros _. left. reflexivity.
Qed.
Theorem lines_read rec m modules nested indent b : printable_block m b ->
  parse_block rec (print_declarations V print_typed m modules nested indent b) = Some (written V m (hide modules b)).
Proof. intros H. apply spelled; [apply lines_spell; exact H | apply hide_printable; exact H]. Qed.
Lemma print_lines_none m modules nested indent len i l : shown modules l = [] -> print_lines m modules nested indent len i l = [].
Proof.
  revert i. induction l as [|[d im] r IH]; intros i H; [reflexivity|]. cbn [shown filter fst] in H. fold (shown modules r) in H.
  cbn [DeclTextModel.print_lines]. destruct (modules && is_composes V d); [apply IH; exact H | discriminate H].
Qed.
Theorem body_reads rec m modules indent outer b : printable_block m b ->
  parse_block rec (print_body V print_typed m modules indent outer b) = Some (written V m (hide modules b)).
Proof.
  intros H. unfold print_body. destruct (shown modules (in_order V b)) as [|x xs] eqn:E.
  - unfold print_declarations. rewrite print_lines_none by exact E. rewrite shown_order in E.
    assert (hide modules b = DBlock [] []) as ->.
    { destruct (hide modules b) as [bi bn]. unfold in_order in E. cbn [d_normal d_important] in E. apply app_eq_nil in E. destruct E as [E1 E2].
      apply map_eq_nil in E1. apply map_eq_nil in E2. subst. reflexivity. }
    destruct m; reflexivity.
  - apply spelled; [|apply hide_printable; exact H]. rewrite <- shown_order. unfold print_declarations.
    apply spells_lines; try apply line_gap; [apply block_ok; exact H | rewrite in_order_length; cbn; lia | lia | destruct m; auto | rewrite E; discriminate].
Qed.

(** The text itself *)
Lemma stmts_write m l : Forall2 (fun s x => s = sstmt m x) (map (sstmt m) l) l.
Proof. induction l; constructor; auto. Qed.
Lemma pieces_write m l b : spells l (stmts m (in_order V b)) ->
  Forall2 (writes V print_typed m) (filter something (pieces l)) (to_write b).
Proof.
  intros S. apply spells_pieces in S. unfold stmts in S. rewrite expand_in_order in S.
  remember (filter something (pieces l)) as ps eqn:Eps. clear Eps. revert S. generalize (to_write b). intros xs.
  revert ps. induction xs as [|x xs IH]; intros ps S; cbn [map] in S; inversion S as [|p s ps' ss' [a [Ha ->]] S']; subst; constructor.
  - destruct (stmt_states V print_typed m (written_name (fst x)) (fst x) (snd x) a Ha) as [w [Hw Hs]]. exists w. auto.
  - apply IH. exact S'.
Qed.
Theorem print_writes m indent b : printable_block m b ->
  Forall2 (writes V print_typed m) (filter something (pieces (print_block V print_typed m indent b))) (to_write b).
Proof. intros H. apply pieces_write, print_spells, H. Qed.
Theorem lines_write m modules nested indent b : printable_block m b ->
  Forall2 (writes V print_typed m) (filter something (pieces (print_declarations V print_typed m modules nested indent b))) (to_write (hide modules b)).
Proof. intros H. apply pieces_write, lines_spell, H. Qed.

(** ** Blocks that come from reading *)
Definition sound (l : list tk) : Prop := Forall firm l /\ loose l.
Lemma sound_app a c : sound (a ++ c) -> sound a /\ sound c.
Proof.
  intros [F O]. apply Forall_app in F. apply loose_app in O. unfold sound. tauto.
Qed.
Lemma sound_tl l : sound l -> sound (tl l).
Proof. destruct l as [|t r]; [auto|]. intros [F O]. inversion F; subst. split; [assumption | exact (loose_cons_inv t r O)]. Qed.
Lemma sound_before f l : sound l -> sound (before f l).
Proof. intros H. rewrite (before_from f l) in H. apply sound_app in H. tauto. Qed.
Lemma sound_from f l : sound l -> sound (from f l).
Proof. intros H. rewrite (before_from f l) in H. apply sound_app in H. tauto. Qed.
Lemma sound_skip l : sound l -> sound (skip l).
Proof. intros H. destruct (skip_cut l) as [a [_ E]]. rewrite E in H. apply sound_app in H. tauto. Qed.

Definition from_text (x : decl V * bool) : Prop :=
  exists n v, parse_decl V parse_typed n v = Some x /\ sound v /\ (forall t, In t v -> is_semi t = false).
Lemma items_sound k : forall l x, sound l -> In (Some x) (items V parse_typed k l) -> from_text x.
Proof.
  induction k as [|k IH]; intros l x S H; [destruct H as [H|[]]; discriminate H|]. destruct l as [|t r]; [destruct H|].
  pose proof (sound_tl _ S) as Sr. cbn [tl] in Sr.
  assert (T : forall f, sound (tl (from f r))) by (intros f; apply sound_tl, sound_from, Sr).
  cbn [DeclTextModel.items] in H. unfold after_semi in H.
  destruct t; try (exact (IH r x Sr H)); destruct H as [H|H]; try discriminate H; try (exact (IH _ x (T _) H)).
  pose proof (sound_skip _ (sound_before is_semi _ Sr)) as S2.
  assert (N : forall t, In t (skip (before is_semi r)) -> is_semi t = false).
  { intros t Ht. destruct (skip_cut (before is_semi r)) as [a [_ E]]. apply (before_stop is_semi r). rewrite E. apply in_or_app. auto. }
  destruct (skip (before is_semi r)) as [|u v] eqn:E; [discriminate H|]. destruct u; try discriminate H.
  exists s, v. split; [exact H|]. split; [exact (sound_tl _ S2) | intros t Ht; apply N; right; exact Ht].
Qed.
Lemma collect_in rec l b : collect V rec l = Some b ->
  (forall d, In d (d_normal b) -> In (Some (d, false)) l) /\ (forall d, In d (d_important b) -> In (Some (d, true)) l).
Proof.
  revert b. induction l as [|[[d im]|] r IH]; intros b H; cbn [collect] in H.
  - injection H as <-. split; intros ? [].
  - destruct (collect V rec r) as [c|]; [|discriminate]. destruct (IH c eq_refl) as [H1 H2].
    destruct im; injection H as <-; cbn [d_normal d_important]; split; intros e He; [right; auto | | | right; auto];
      destruct He as [<-|He]; [left; reflexivity | right; auto | left; reflexivity | right; auto].
  - destruct rec; [|discriminate]. destruct (IH b H) as [H1 H2]. split; intros e He; right; auto.
Qed.
Lemma parse_tk_tok d t u : parse_tk d t = Some (VTok u) -> u = t.
Proof.
  destruct t; cbn [parse_tk is_bad]; intros H; try discriminate H; try (injection H as <-; reflexivity).
  - destruct (all_of (parse_tk (S d)) body) as [z|]; [|discriminate H].
    assert (R : forall f q, ref_of f q z <> Some (VTok u)).
    { intros f q R. unfold ref_of in R. destruct (v_skip z) as [|[[]| | |] w]; try discriminate R.
      destruct (String.eqb f "var" && negb (dashed s)); [discriminate R|].
      destruct (v_skip w) as [|[[]| | |] w']; try discriminate R. destruct q; discriminate R. }
    destruct (String.eqb name "var"); [exfalso; exact (R _ _ H)|]. destruct (String.eqb name "env"); [exfalso; exact (R _ _ H)|].
    destruct (deep (S d)); discriminate H.
  - destruct (all_of (parse_tk (S d)) body) as [z|]; [|discriminate H]. destruct (deep (S d)); discriminate H.
Qed.
Lemma parse_tk_block d t b l : parse_tk d t = Some (VBlock b l) -> exists l', t = KBlock b l'.
Proof.
  destruct t; cbn [parse_tk is_bad]; intros H; try discriminate H.
  - destruct (all_of (parse_tk (S d)) body) as [z|]; [|discriminate H].
    assert (R : forall f q, ref_of f q z <> Some (VBlock b l)).
    { intros f q R. unfold ref_of in R. destruct (v_skip z) as [|[[]| | |] w]; try discriminate R.
      destruct (String.eqb f "var" && negb (dashed s)); [discriminate R|].
      destruct (v_skip w) as [|[[]| | |] w']; try discriminate R. destruct q; discriminate R. }
    destruct (String.eqb name "var"); [exfalso; exact (R _ _ H)|]. destruct (String.eqb name "env"); [exfalso; exact (R _ _ H)|].
    destruct (deep (S d)); discriminate H.
  - destruct (all_of (parse_tk (S d)) body) as [z|]; [|discriminate H]. destruct (deep (S d)); [discriminate H|]. injection H as <- _. eauto.
Qed.
Lemma all_of_in d l vs v : all_of (parse_tk d) l = Some vs -> In v vs -> exists t, In t l /\ parse_tk d t = Some v.
Proof.
  revert vs. induction l as [|t r IH]; intros vs H Hv; cbn [all_of] in H; [injection H as <-; destruct Hv|].
  destruct (parse_tk d t) as [w|] eqn:Ew; [|discriminate]. destruct (all_of (parse_tk d) r) as [q|] eqn:Eq; [|discriminate].
  injection H as <-. destruct Hv as [<-|Hv]; [exists t; split; [left; reflexivity | exact Ew]|].
  destruct (IH q eq_refl Hv) as [u [H1 H2]]. exists u. split; [right; exact H1 | exact H2].
Qed.
Lemma read_list l v : sound l -> tl_parse 0 l = Some v ->
  parsed_list v /\ (forall t, In (VTok t) v -> In t l) /\ (forall b c, In (VBlock b c) v -> exists c', In (KBlock b c') l).
Proof.
  intros S P. split; [exists l; split; [apply glue_fixed; exact S | exact P]|].
  unfold tl_parse in P. destruct (deep 0); [discriminate P|].
  destruct (all_of (parse_tk 0) l) as [vs|] eqn:E; [|discriminate P]. injection P as <-.
  destruct (trim_cut vs) as [a [c Hc]].
  assert (I : forall x, In x (trim vs) -> In x vs) by (intros x Hx; rewrite Hc; apply in_or_app; right; apply in_or_app; left; exact Hx).
  split.
  - intros t Ht. destruct (all_of_in 0 l vs _ E (I _ Ht)) as [u [H1 H2]]. rewrite (parse_tk_tok 0 u t H2). exact H1.
  - intros b q Hq. destruct (all_of_in 0 l vs _ E (I _ Hq)) as [u [H1 H2]]. destruct (parse_tk_block 0 u b q H2) as [l' ->]. eauto.
Qed.
Lemma from_text_printable m d important : from_text (d, important) -> answered V parse_typed print_typed m d important ->
  printable m d important /\ each_prefix d = [d].
Proof.
  intros [n [l [P [S N]]]] [L A]. unfold DeclTextModel.parse_decl in P. pose proof (known_from n) as K.
  pose proof (single_from n) as One. remember (pid_from property_table n) as i eqn:Ei. clear Ei.
  destruct (parse_property V parse_typed i (before (stops i) l)) as [d'|] eqn:Ep; [|discriminate P].
  destruct (parse_end (from (stops i) l)) as [im|]; [|discriminate P]. injection P as -> ->.
  assert (Sb : sound (before (stops i) l)) by (apply sound_before; exact S).
  assert (Nb : forall t, In t (before (stops i) l) -> is_semi t = false /\ stops i t = false).
  { intros t Ht. split; [|exact (before_stop _ _ _ Ht)]. apply N. rewrite (before_from (stops i) l). apply in_or_app. auto. }
  assert (Lists : forall v, tl_parse 0 (before (stops i) l) = Some v ->
            parsed_list v /\ no_delimiter v /\ ((forall q, i = PCustom q -> dashed q = false) -> curly_free v)).
  { intros v Hv. destruct (read_list _ v Sb Hv) as [R1 [R2 R3]]. split; [exact R1|]. split.
    - split; intros H; apply R2 in H; destruct (Nb _ H) as [B1 B2]; [discriminate B1 | destruct i; discriminate B2].
    - intros Hq b H. destruct (R3 Curly b H) as [c' H']. destruct (Nb _ H') as [_ B]. destruct i; try discriminate B.
      cbn [stops] in B. rewrite (Hq _ eq_refl) in B. discriminate B. }
  assert (Custom : forall q, i = PCustom q -> printable m d important /\ each_prefix d = [d]).
  { intros q ->. cbn [DeclTextModel.parse_property] in Ep. destruct (tl_parse 0 _) as [v|] eqn:Ev; [|discriminate Ep]. injection Ep as <-.
    destruct (Lists v eq_refl) as [L1 [L2 L3]]. split; [|reflexivity]. split; [exact K|]. split; [exact L|]. repeat (split; [assumption|]).
    intros Hd. apply L3. intros q' E. injection E as <-. exact Hd. }
  assert (Known : (forall q, i <> PCustom q) -> i <> PAll ->
            parse_property V parse_typed i (before (stops i) l)
            = match parse_typed (pid_name i) (before (stops i) l) with
              | Some v => Some (DTyped i v) | None => option_map (DUnparsed i) (tl_parse 0 (before (stops i) l)) end ->
            printable m d important /\ decl_id V d = i).
  { intros H1 H2 E. rewrite E in Ep. destruct (parse_typed (pid_name i) _) as [v|].
    - injection Ep as <-. split; [|reflexivity]. split; [exact K|]. split; [exact L|]. split; [exact A | exact H1].
    - destruct (tl_parse 0 _) as [v|] eqn:Ev; [|discriminate Ep]. injection Ep as <-. destruct (Lists v eq_refl) as [L1 [L2 L3]].
      split; [|reflexivity]. split; [exact K|]. split; [exact L|]. destruct A as [A1 A2]. repeat (split; [assumption|]).
      split; [apply L3; intros q Hq; exfalso; exact (H1 q Hq)|]. split; [exact A2|]. split; [exact H2 | exact H1]. }
  destruct i as [x p|x| |x].
  - destruct (Known ltac:(discriminate) ltac:(discriminate) eq_refl) as [Pr Ei]. split; [exact Pr|].
    destruct (One x p eq_refl) as [q ->]. destruct d as [j v|j v|j v]; cbn [decl_id] in Ei; try discriminate Ei; subst j; cbn [DeclTextSpec.each_prefix];
      [rewrite vs_iter_single | rewrite vs_iter_one]; reflexivity.
  - destruct (Known ltac:(discriminate) ltac:(discriminate) eq_refl) as [Pr Ei]. split; [exact Pr|].
    destruct d as [j v|j v|j v]; cbn [decl_id] in Ei; try discriminate Ei; subst j; reflexivity.
  - cbn [DeclTextModel.parse_property] in Ep. destruct (parse_typed "all" _) as [v|]; [|discriminate Ep]. injection Ep as <-.
    split; [|reflexivity]. split; [exact K|]. split; [exact L|]. split; [exact A | discriminate].
  - exact (Custom x eq_refl).
Qed.
Lemma flat_single l : (forall d, In d l -> each_prefix d = [d]) -> flat_map each_prefix l = l.
Proof.
  induction l as [|x r IH]; intros H; [reflexivity|]. cbn [flat_map]. rewrite (H x (or_introl eq_refl)), IH; [reflexivity|].
  intros d Hd. apply H. right. exact Hd.
Qed.
Lemma read_printable rec text m b : parse_block rec text = Some b -> answered_block V parse_typed print_typed m b ->
  printable_block m b /\ written V m b = reread V m b.
Proof.
  intros P [A1 A2]. unfold DeclTextModel.parse_block in P. destruct (collect_in _ _ _ P) as [C1 C2].
  assert (S : sound (glue text)) by (apply glue_fixed, glue_idem).
  assert (H1 : forall d, In d (d_normal b) -> printable m d false /\ each_prefix d = [d]).
  { intros d Hd. apply from_text_printable; [exact (items_sound _ _ _ S (C1 d Hd)) | exact (A1 d Hd)]. }
  assert (H2 : forall d, In d (d_important b) -> printable m d true /\ each_prefix d = [d]).
  { intros d Hd. apply from_text_printable; [exact (items_sound _ _ _ S (C2 d Hd)) | exact (A2 d Hd)]. }
  split; [split; intros d Hd; [apply H1 | apply H2]; exact Hd|]. unfold written, reread.
  rewrite !flat_single; [reflexivity | intros d Hd; apply H1; exact Hd | intros d Hd; apply H2; exact Hd].
Qed.
Theorem reparse rec rec' text m indent b : parse_block rec text = Some b -> answered_block V parse_typed print_typed m b ->
  parse_block rec' (print_block V print_typed m indent b) = Some (reread V m b).
Proof. intros P A. destruct (read_printable rec text m b P A) as [H E]. rewrite <- E. apply print_reads. exact H. Qed.
Theorem reparse_body rec rec' text m indent outer b : parse_block rec text = Some b -> answered_block V parse_typed print_typed m b ->
  parse_block rec' (print_body V print_typed m false indent outer b) = Some (reread V m b).
Proof. intros P A. destruct (read_printable rec text m b P A) as [H E]. rewrite <- E. apply (body_reads rec' m false). exact H. Qed.
End Values.
