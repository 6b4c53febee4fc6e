(** * What is printed is in the grammar, with the meaning of the value *)
From Coq Require Import List Bool QArith ZArith Ascii String Lia.
From Verif Require Import AnimModel GridModel GridSpec GridReadProofs GridTemplateProofs.
Import ListNotations.
Local Open Scope nat_scope.
Local Open Scope string_scope.
Local Open Scope list_scope.
Local Arguments is_kw kw s : simpl never.
Local Arguments reserved s : simpl never.

(** ** Separation, with the token before *)
Definition free (p : option tok) : Prop := match p with Some u => ~ tail_sticks u | None => True end.
Fixpoint apart (p : option tok) (l : list piece) : Prop :=
  match l with
  | [] => True
  | Sp :: r => apart None r
  | T t :: r => match p with Some u => ~ (tail_sticks u /\ head_sticks t) | None => True end /\ apart (Some t) r
  end.
Fixpoint last_tok (p : option tok) (l : list piece) : option tok :=
  match l with [] => p | Sp :: r => last_tok None r | T t :: r => last_tok (Some t) r end.
Lemma apart_app a : forall p b, apart p a -> apart (last_tok p a) b -> apart p (a ++ b).
Proof. induction a as [|[t|] a IH]; intros p b; cbn; [tauto| |apply IH]. intros [H1 H2] H3. split; [exact H1|]. apply IH; assumption. Qed.
Lemma apart_free p l : free p -> apart None l -> apart p l.
Proof. destruct l as [|[t|] l]; cbn; try tauto. intros F [_ H]. split; [|exact H]. destruct p; [|exact I]. cbn in F. tauto. Qed.
Lemma apart_set l : apart None l -> SetApart l.
Proof.
  assert (G : forall l p, apart p l -> SetApart l /\ forall t, p = Some t -> SetApart (T t :: l)).
  { clear l. induction l as [|[t|] l IH]; intros p H; cbn in H.
    - split; constructor.
    - destruct H as [H1 H2]. destruct (IH _ H2) as [G1 G2]. split; [apply G2; reflexivity|]. intros u ->. constructor; [exact H1|apply G2; reflexivity].
    - destruct (IH _ H) as [G1 _]. split; [constructor; exact G1|]. intros u _. constructor. constructor. exact G1. }
  intros H. apply (G l None H).
Qed.
Lemma tokens_app a b : tokens (a ++ b) = tokens a ++ tokens b.
Proof. unfold tokens. apply flat_map_app. Qed.
Lemma bare_tokens l : bare l = tokens l.
Proof. reflexivity. Qed.

(** ** Values that were read *)
Lemma fine_length t l : GLength t l -> GLength (length_tok l) l.
Proof. destruct 1; constructor. Qed.
Lemma fine_breadth fl t b : GBreadth fl t b -> GBreadth fl (breadth_tok b) b.
Proof.
  intros H. inversion H; subst; cbn.
  - apply gb_length. eapply fine_length. eassumption.
  - apply gb_flex; [reflexivity|assumption].
  - apply gb_min. reflexivity.
  - apply gb_max. reflexivity.
  - apply gb_auto. reflexivity.
Qed.
Definition fine_size (s : size) : Prop := GSize (size_tok s) s.
Lemma size_fine t s : GSize t s -> fine_size s.
Proof.
  intros H. unfold fine_size. inversion H; subst; cbn.
  - apply gs_breadth. eapply fine_breadth. eassumption.
  - apply gs_minmax; [reflexivity|eapply fine_breadth; eassumption|eapply fine_breadth; eassumption].
  - apply gs_fit; [reflexivity|eapply fine_length; eassumption].
Qed.
Definition fine_names (n : list string) : Prop := Forall css_name n.
Lemma names_fine ns n : GNamesOpt ns n -> fine_names n.
Proof. intros H. destruct H as [|t n H]; [constructor|]. destruct H. assumption. Qed.
Lemma before_fine b o : GBefore b o -> match o with Some n => fine_names n | None => True end.
Proof. intros H. destruct H as [|t n H]; [exact I|]. destruct H. assumption. Qed.

Section Printing.
Variable minify : bool.
Definition names_pieces (n : list string) : list piece := match n with [] => [] | _ => [T (names_tok n)] end.
Lemma names_opt n : fine_names n -> GNamesOpt (tokens (names_pieces n)) n.
Proof. intros H. destruct n as [|a n]; [constructor|]. cbn [names_pieces tokens flat_map app]. apply go_some. apply (gn_names (a :: n)). exact H. Qed.
Lemma tokens_space : tokens (space minify) = [].
Proof. unfold space. destruct minify; reflexivity. Qed.
Lemma tokens_slash a b : tokens (a ++ slash minify ++ b) = tokens a ++ Slash :: tokens b.
Proof. unfold slash. rewrite !tokens_app, tokens_space. reflexivity. Qed.

Section Loop.
Context {A B : Type} (G : tok -> B -> Prop) (val : B -> A) (tok_of : A -> tok).
Lemma print_tail l : Forall (fun p => G (tok_of (val (fst p))) (fst p) /\ fine_names (snd p)) l -> forall n first, fine_names n ->
  exists ns r, tokens (print_loop minify tok_of first (n :: map snd l) (map (fun p => val (fst p)) l)) = ns ++ r /\ GNamesOpt ns n /\ GTail G r l.
Proof.
  induction 1 as [|[b m] l [Hb Hm] Hl IH]; intros n first Hn; cbn [map fst snd] in *.
  - exists (tokens (names_pieces n)), []. cbn [print_loop]. rewrite !app_nil_r. split; [reflexivity|split; [apply names_opt, Hn|constructor]].
  - destruct (IH m false Hm) as (ns & r & E & H1 & H2).
    exists (tokens (names_pieces n)), (tok_of (val b) :: ns ++ r). split; [|split; [apply names_opt, Hn|constructor; assumption]].
    remember (map snd l) as ms. remember (map (fun p => val (fst p)) l) as is. cbn [print_loop].
    rewrite !tokens_app. fold (names_pieces n). f_equal.
    cbn [print_loop] in E. change (tokens (T (tok_of (val b)) :: ?x)) with (tok_of (val b) :: tokens x).
    replace (tokens (match n with [] => if first then [] else [Sp] | _ => space minify end)) with (@nil tok) by (destruct n; [destruct first; reflexivity|rewrite tokens_space; reflexivity]).
    cbn [app]. unfold tokens at 1. cbn [flat_map app]. f_equal. exact E.
Qed.
Lemma print_strip n l first : Forall (fun p => G (tok_of (val (fst p))) (fst p) /\ fine_names (snd p)) l -> fine_names n -> l <> [] ->
  GStrip G (tokens (print_loop minify tok_of first (n :: map snd l) (map (fun p => val (fst p)) l))) (n, l).
Proof. intros Hl Hn N. destruct (print_tail l Hl n first Hn) as (ns & r & E & H1 & H2). rewrite E. constructor; assumption. Qed.
End Loop.
Lemma names_free n : free (Some (names_tok n)).
Proof. cbn. tauto. Qed.
Lemma loop_apart {A} (tok_of : A -> tok) (items : list A) : forall names p first, (first = true -> free p) -> apart p (print_loop minify tok_of first names items).
Proof.
  induction items as [|i items IH]; intros names p first Hp.
  - assert (Z : forall names p first, apart p (print_loop minify tok_of first names ([] : list A))).
    { induction names0 as [|n ns IHn]; intros; [exact I|]. cbn [print_loop]. destruct n; cbn [app]; [apply IHn|]. cbn. split; [|apply IHn]. destruct p0; [tauto|exact I]. }
    apply Z.
  - destruct names as [|n names]; [exact I|]. cbn [print_loop].
    assert (R : forall q, free q -> apart q (T (tok_of i) :: print_loop minify tok_of false names items)).
    { intros q Hq. cbn. split; [destruct q; [cbn in Hq; tauto|exact I]|]. apply IH. discriminate. }
    destruct n as [|a n]; cbn [app].
    + destruct first; cbn [app]; [apply R, Hp; reflexivity|]. exact (R None I).
    + cbn [apart]. split; [destruct p; [cbn; tauto|exact I]|]. apply apart_app; [unfold space; destruct minify; exact I|].
      apply R. unfold space. destruct minify; cbn; tauto.
Qed.

Definition fine_track (t : track) : Prop := GTrack (item_tok minify (item_of t)) t.
Lemma track_fine t i : GTrack t i -> fine_track i.
Proof.
  intros H. unfold fine_track. inversion H; subst.
  - cbn. apply gt_size. eapply size_fine. eassumption.
  - destruct s as [n l']. cbn [item_of item_tok]. rewrite bare_tokens. apply gt_repeat; [reflexivity| |].
    + inversion H1; subst; cbn; [apply gc_int; assumption|apply gc_fill; reflexivity|apply gc_fit; reflexivity].
    + inversion H2 as [ns n0 r l0 Hn Hr Hl E1 E2]; subst.
      pose proof (print_strip GSize (fun s => s) size_tok n l' true) as P. cbv beta in P.
      change (map (fun p : size * list string => fst p) l') with (map (@fst size (list string)) l') in P. apply P; [|eapply names_fine; eassumption|exact Hl].
      clear - Hr. induction Hr as [|t i ns n r l Ht Hn Hr IH]; constructor; [|exact IH]. split; [eapply size_fine, Ht|eapply names_fine, Hn].
Qed.
Definition fine_strip (s : strip) : Prop :=
  fine_names (fst s) /\ Forall (fun p => fine_track (fst p) /\ fine_names (snd p)) (snd s) /\ snd s <> [].
Lemma strip_fine l s : GStrip GTrack l s -> fine_strip s.
Proof.
  intros H. destruct H as [ns n r l Hn Hr Hl]. split; [eapply names_fine, Hn|split; [|exact Hl]]. cbn [snd].
  clear - Hr. induction Hr as [|t i ns n r l Ht Hn Hr IH]; constructor; [|exact IH]. split; [eapply track_fine, Ht|eapply names_fine, Hn].
Qed.
Lemma print_tracks_ok s : fine_strip s -> GStrip GTrack (tokens (print_tracks minify (tracks_val s))) s.
Proof. intros (H1 & H2 & H3). destruct s as [n l]. unfold print_tracks, tracks_val. cbn [t_names t_items fst snd]. apply print_strip; assumption. Qed.
Definition fine_sizing (o : option strip) : Prop := match o with Some s => fine_strip s | None => True end.
Lemma sizing_fine l o : GSizing l o -> fine_sizing o.
Proof. intros H. destruct H as [|l s H]; [exact I|]. eapply strip_fine, H. Qed.
Lemma print_sizing_ok o : fine_sizing o -> GSizing (tokens (print_sizing minify (sizing_val o))) o.
Proof. destruct o as [s|]; intros H; [apply gz_strip, print_tracks_ok, H|]. apply gz_none. reflexivity. Qed.
Lemma tracks_apart p t : free p -> apart p (print_tracks minify t).
Proof. intros H. apply loop_apart. intros _. exact H. Qed.
Lemma sizing_apart p s : free p -> apart p (print_sizing minify s).
Proof. intros H. destruct s; [apply apart_free; [exact H|cbn; tauto]|apply tracks_apart, H]. Qed.
Lemma slash_apart p b : apart (Some Slash) b -> apart p (slash minify ++ b).
Proof.
  intros H. assert (H' : apart None b) by (destruct b as [|[|] b]; cbn in *; tauto).
  unfold slash, space. destruct minify; cbn; [split; [destruct p; tauto|exact H]|split; [exact I|exact H']].
Qed.
Lemma slash_apart2 p b : apart (Some Slash) b -> apart p (space minify ++ T Slash :: space minify ++ b).
Proof.
  intros H. assert (H' : apart None b) by (destruct b as [|[|] b]; cbn in *; tauto).
  unfold slash, space. destruct minify; cbn; [split; [destruct p; tauto|exact H]|split; [exact I|exact H']].
Qed.
Lemma slash_free : free (Some Slash).
Proof. cbn. tauto. Qed.

(** ** Sizes *)
Definition fine_sizes (l : list size) : Prop := Forall fine_size l /\ l <> [].
Lemma sizes_fine l s : GSizes l s -> fine_sizes s.
Proof. intros [H N]. split; [|exact N]. clear N. induction H as [|t z l s H _ IH]; constructor; [eapply size_fine, H|exact IH]. Qed.
Lemma sizes_opt_fine l s : GSizesOpt l s -> fine_sizes s.
Proof. intros H. destruct H as [|l s H]; [|eapply sizes_fine, H]. split; [|discriminate]. constructor; [|constructor]. apply gs_breadth, gb_auto. reflexivity. Qed.
Lemma is_auto_eq s : is_auto s = true -> s = Breadth BAuto.
Proof. destruct s as [[]| |]; try discriminate. reflexivity. Qed.
Lemma spaced_tokens l : tokens (spaced_out (map T l)) = l.
Proof. induction l as [|t [|u l] IH]; [reflexivity|reflexivity|]. cbn [map spaced_out] in *. unfold tokens in *. cbn [flat_map app] in *. f_equal. exact IH. Qed.
Lemma spaced_apart l : forall p, free p -> apart p (spaced_out (map T l)).
Proof.
  induction l as [|t [|u l] IH]; intros p Hp; [exact I| |].
  - cbn. split; [destruct p; cbn in *; tauto|exact I].
  - change (apart p (T t :: Sp :: spaced_out (map T (u :: l)))). cbn [apart]. split; [destruct p; cbn in *; tauto|]. apply IH. exact I.
Qed.
Lemma spaced_sizes l : spaced_out (map (fun s => T (size_tok s)) l) = spaced_out (map T (map size_tok l)).
Proof. rewrite map_map. reflexivity. Qed.
Lemma sizes_val_tokens s : fine_sizes s -> tokens (print_sizes (sizes_val s)) = map size_tok s.
Proof.
  intros [_ N]. destruct s as [|z s]; [congruence|]. unfold sizes_val, print_sizes. destruct s as [|y s].
  - destruct (is_auto z) eqn:E; [apply is_auto_eq in E; subst; reflexivity|reflexivity].
  - rewrite spaced_sizes, spaced_tokens. reflexivity.
Qed.
Lemma print_sizes_ok s : fine_sizes s -> GSizes (tokens (print_sizes (sizes_val s))) s.
Proof.
  intros H. rewrite (sizes_val_tokens _ H). destruct H as [H N]. split; [|exact N]. clear N. induction H; constructor; assumption.
Qed.
Lemma sizes_apart p l : free p -> apart p (print_sizes l).
Proof. intros H. destruct l; [cbn; split; [destruct p; cbn in *; tauto|exact I]|]. unfold print_sizes. rewrite spaced_sizes. apply spaced_apart, H. Qed.
Lemma no_sizes_val s : no_sizes (sizes_val s) = true -> s <> [] -> s = [Breadth BAuto].
Proof. destruct s as [|z [|y s]]; [congruence| |discriminate]. cbn. destruct (is_auto z) eqn:E; [|discriminate]. intros _ _. apply is_auto_eq in E. subst. reflexivity. Qed.
Lemma auto_flow_ok f s : fine_sizes s ->
  exists a b, tokens (auto_flow_text f (sizes_val s)) = a ++ b /\ GAutoFlow a (f_dense f) /\ GSizesOpt b s.
Proof.
  intros H. unfold auto_flow_text. set (a := Word "auto-flow" :: if f_dense f then [Word "dense"] else []).
  assert (G : GAutoFlow a (f_dense f)). { unfold a. destruct (f_dense f); [apply gaf_dense; reflexivity|apply gaf; reflexivity]. }
  exists a. destruct (no_sizes (sizes_val s)) eqn:E.
  - exists []. split; [|split; [exact G|]].
    + unfold a. destruct (f_dense f); reflexivity.
    + rewrite (no_sizes_val _ E) by apply H. constructor.
  - exists (tokens (print_sizes (sizes_val s))). split; [|split; [exact G|]].
    + unfold a. destruct (f_dense f); reflexivity.
    + apply gzo_some, print_sizes_ok, H.
Qed.
Lemma auto_flow_apart p f s : free p -> apart p (auto_flow_text f s).
Proof.
  intros H. unfold auto_flow_text. cbn [apart]. split; [destruct p; cbn in *; tauto|].
  destruct (f_dense f); destruct (no_sizes s); cbn [app apart]; repeat split; try exact I; try apply sizes_apart; exact I.
Qed.

(** ** Areas *)
Definition fine_cells (l : list cell) : Prop := Forall (fun c => forall n, c = Some n -> n <> "" /\ all_chars is_name n) l.
Lemma cells_fine s l : GCells s l -> fine_cells l.
Proof. induction 1 as [|w n s l _ Hn Hc _ _ IH|w d s l _ _ _ _ _ IH]; constructor; try exact IH; [intros ? [= <-]; split; assumption|discriminate]. Qed.
Lemma name_starts n s : n <> "" -> all_chars is_name n -> ~ starts is_dot (n ++ s)%string.
Proof. destruct n as [|c n]; [congruence|]. intros _ [H _] D. cbn in D. destruct (name_not_blank _ H) as [_ E]. apply dot_iff in D. congruence. Qed.
Lemma space_starts s : ~ starts is_name (" " ++ s)%string /\ ~ starts is_dot (" " ++ s)%string.
Proof. split; intros H; cbn in H; [apply name_iff in H; discriminate H|apply dot_iff in H; discriminate H]. Qed.
Lemma dot_starts s : ~ starts is_name ("." ++ s)%string.
Proof. intros H; cbn in H; apply name_iff in H; discriminate H. Qed.
Lemma text_starts l : fine_cells l -> ~ starts is_name (row_text minify false false l) /\ ~ starts is_dot (row_text minify false true l).
Proof.
  intros H. destruct l as [|[n|] l]; cbn [row_text negb andb orb].
  - split; exact (fun x => x).
  - pose proof (Forall_inv H n eq_refl) as [N C]. split; [apply space_starts|]. destruct minify; cbn [negb]; [apply (name_starts n); assumption|apply space_starts].
  - split; [|apply space_starts]. destruct minify; cbn [negb]; [apply dot_starts|apply space_starts].
Qed.
Lemma blank_sep (b : bool) : all_chars is_blank (if b then " " else "").
Proof. destruct b; [split; [apply blank_iff; reflexivity|exact I]|exact I]. Qed.
Lemma text_cells l : fine_cells l -> forall first last, GCells (row_text minify first last l) l.
Proof.
  induction 1 as [|c l Hc Hl IH]; intros first last.
  - apply gcl_end. exact I.
  - destruct c as [n|]; cbn [row_text].
    + destruct (Hc n eq_refl) as [N C]. apply gcl_name; [apply blank_sep|exact N|exact C|apply (text_starts l Hl)|apply IH].
    + apply (gcl_null _ "."); [apply blank_sep|discriminate|split; [reflexivity|exact I]|apply (text_starts l Hl)|apply IH].
Qed.
Lemma chunks_ok c : 0 < c -> forall rows fuel, Forall (fun r : list cell => List.length r = c) rows -> List.length (List.concat rows) <= fuel -> chunks fuel c (List.concat rows) = rows.
Proof.
  intros Hc. induction rows as [|r rows IH]; intros fuel H F.
  - destruct fuel; reflexivity.
  - pose proof (Forall_inv H) as E. pose proof (Forall_inv_tail H) as H'. cbn [List.concat] in *. rewrite app_length in F.
    destruct r as [|x r]; [cbn in E; lia|]. destruct fuel as [|fuel]; [cbn in F; lia|]. cbn [chunks app].
    change (x :: r ++ List.concat rows) with ((x :: r) ++ List.concat rows).
    rewrite firstn_app, skipn_app. replace (c - List.length (x :: r)) with 0 by lia. rewrite firstn_all2, skipn_all2 by lia. cbn [firstn skipn]. rewrite app_nil_r.
    cbn [app]. f_equal. apply IH; [exact H'|]. cbn in F. lia.
Qed.
Lemma rows_of_ok rows : area_rows rows -> rows_of (columns_of rows) (List.concat rows) = rows.
Proof.
  intros (N & H & _). apply chunks_ok; [|eapply Forall_impl; [|exact H]; cbv beta; tauto|lia].
  destruct rows as [|r rows]; [congruence|]. pose proof (Forall_inv H) as [_ E]. cbn. destruct r; [congruence|cbn; lia].
Qed.
Definition fine_rows (rows : list (list cell)) : Prop := area_rows rows /\ Forall fine_cells rows.
Definition fine_areas (o : option (list (list cell))) : Prop := match o with Some rows => fine_rows rows | None => True end.
Lemma areas_fine l o : GAreas l o -> fine_areas o.
Proof.
  intros H. destruct H as [|l rows H Ha]; [exact I|]. split; [exact Ha|]. clear Ha. induction H as [|t r l rows (s & _ & H) _ IH]; constructor; [eapply cells_fine, H|exact IH].
Qed.
Lemma broken_tokens l : tokens (broken minify (map T l)) = l.
Proof.
  induction l as [|t [|u l] IH]; [reflexivity|reflexivity|]. change (tokens (T t :: space minify ++ broken minify (map T (u :: l))) = t :: u :: l).
  change (tokens (T t :: ?x)) with (t :: tokens x). unfold tokens at 1. cbn [flat_map app]. f_equal. fold (tokens (space minify ++ broken minify (map T (u :: l)))). rewrite tokens_app, tokens_space. exact IH.
Qed.
Lemma strings_apart l : forall p, (forall t, In t l -> exists s, t = Str s) -> apart p (broken minify (map T l)).
Proof.
  induction l as [|t [|u l] IH]; intros p H; [exact I| |]; destruct (H t (or_introl eq_refl)) as (s & ->).
  - cbn. split; [destruct p; tauto|exact I].
  - change (apart p (T (Str s) :: space minify ++ broken minify (map T (u :: l)))). cbn [apart]. split; [destruct p; cbn; tauto|].
    apply apart_app; [unfold space; destruct minify; exact I|]. apply IH. intros x Hx. apply H. right. exact Hx.
Qed.
Lemma print_areas_ok o : fine_areas o -> GAreas (tokens (print_areas minify (areas_val o))) o.
Proof.
  destruct o as [rows|]; intros H; [|apply ga_none; reflexivity]. destruct H as [H F]. cbn [areas_val print_areas]. rewrite (rows_of_ok _ H).
  rewrite <- (map_map (row_tok minify) T), broken_tokens. apply ga_rows; [|exact H]. clear H. induction F as [|r rows Hr _ IH]; constructor; [|exact IH].
  exists (row_text minify true false r). split; [reflexivity|apply text_cells, Hr].
Qed.
Lemma areas_apart p a : free p -> apart p (print_areas minify a).
Proof.
  intros H. destruct a as [|c k]; [cbn; split; [destruct p; cbn in *; tauto|exact I]|]. cbn [print_areas]. rewrite <- (map_map (row_tok minify) T).
  apply strings_apart. intros t Ht. apply in_map_iff in Ht. destruct Ht as (r & <- & _). eexists. reflexivity.
Qed.

(** ** Rows of a template *)
Lemma explicit_size t : fine_track t -> match t with TSize _ => True | TRepeat _ _ => False end -> exists s, t = TSize s /\ fine_size s.
Proof. destruct t as [s|]; [|contradiction]. intros H _. exists s. split; [reflexivity|]. unfold fine_track in H. cbn [item_of item_tok] in H. inversion H; subst. assumption. Qed.
Lemma print_rows_ok (cells : list (list cell)) : forall (ts : list (track * list string)) n first,
  List.length cells = List.length ts -> Forall fine_cells cells ->
  Forall (fun p => fine_track (fst p) /\ fine_names (snd p)) ts -> explicit (n, ts) -> fine_names n ->
  exists pre body x R,
    tokens (print_rows minify first (n :: map snd ts) (map (fun p => item_of (fst p)) ts) cells) = pre ++ body
    /\ GNamesOpt pre x /\ (cells <> [] -> (minify = true \/ List.length n <> 2) -> pre = []) /\ GRows body R
    /\ x ++ match R with [] => [] | r :: _ => names_before r end = n
    /\ tracks_after R = ts /\ map w_cells R = cells.
Proof.
  induction cells as [|r cells IH]; intros ts n first L F H E Hn.
  - destruct ts; [|discriminate]. exists (tokens (names_pieces n)), [], n, []. cbn [print_rows map]. rewrite !app_nil_r. split; [|split; [|split; [|split; [|split; [|split]]]]].
    + destruct n; [reflexivity|]. rewrite tokens_app, tokens_space. reflexivity.
    + apply names_opt, Hn.
    + congruence.
    + constructor.
    + reflexivity.
    + reflexivity.
    + reflexivity.
  - destruct ts as [|[t m] ts]; [discriminate|]. injection L as L. pose proof (Forall_inv F) as Fr. pose proof (Forall_inv_tail F) as F'.
    pose proof (Forall_inv H) as [Ht Hm]. pose proof (Forall_inv_tail H) as H'. unfold explicit in E. cbn [snd] in E. pose proof (Forall_inv E) as Et. pose proof (Forall_inv_tail E) as E'.
    cbn [fst snd] in *. destruct (explicit_size t Ht Et) as (s & -> & Hs).
    destruct (IH ts m false L F' H' E' Hm) as (pre' & body' & x' & R' & T' & N' & _ & G' & X' & A' & C').
    (* the size *)
    assert (SZ : exists z, tokens (if is_auto s then [] else space minify ++ [T (item_tok minify (One s))]) = z /\ GSizeOpt z s).
    { destruct (is_auto s) eqn:Ea.
      - exists []. apply is_auto_eq in Ea. subst s. split; [reflexivity|constructor].
      - exists [size_tok s]. rewrite tokens_app, tokens_space. split; [reflexivity|]. apply gso_some. exact Hs. }
    destruct SZ as (z & Ez & Gz).
    assert (RT : row_tok minify r = Str (row_text minify true false r)) by reflexivity.
    assert (GC : GCells (row_text minify true false r) r) by (apply text_cells, Fr).
    assert (K : forall pre before b x, tokens (match n with
             | [] => if first then [] else space minify
             | [a; b] => if minify then [T (names_tok n)] else space minify ++ T (names_tok [a]) :: space minify ++ T (names_tok [b]) :: space minify
             | _ => (if first then [] else space minify) ++ T (names_tok n) :: space minify end) = pre ++ b ->
       GNamesOpt pre x -> (minify = true \/ List.length n <> 2 -> pre = []) -> GBefore b before -> x ++ match before with Some y => y | None => [] end = n ->
       exists pre body x R,
         tokens (print_rows minify first (n :: map snd ((TSize s, m) :: ts)) (map (fun p => item_of (fst p)) ((TSize s, m) :: ts)) (r :: cells)) = pre ++ body
         /\ GNamesOpt pre x /\ (r :: cells <> [] -> minify = true \/ List.length n <> 2 -> pre = []) /\ GRows body R
         /\ x ++ match R with [] => [] | r :: _ => names_before r end = n /\ tracks_after R = (TSize s, m) :: ts /\ map w_cells R = r :: cells).
    { intros pre before b x Tb Gp Pe Gb Xb.
      exists pre, ((b ++ Str (row_text minify true false r) :: z ++ pre') ++ body'), x, (Row before r s x' :: R'). split; [|split; [|split; [|split; [|split; [|split]]]]].
      - cbn [map fst snd item_of print_rows List.tl]. rewrite tokens_app, Tb. rewrite RT. rewrite <- !List.app_assoc. f_equal. f_equal.
        unfold tokens at 1. cbn [flat_map app]. f_equal. fold (tokens ((if is_auto s then [] else space minify ++ [T (item_tok minify (One s))]) ++ print_rows minify false (m :: map snd ts) (map (fun p => item_of (fst p)) ts) cells)).
        rewrite tokens_app, Ez, T'. rewrite <- List.app_assoc. reflexivity.
      - exact Gp.
      - intros _. exact Pe.
      - constructor; [|exact G']. constructor; assumption.
      - cbn [names_before]. exact Xb.
      - cbn [tracks_after w_size w_after]. rewrite A'. f_equal. f_equal. exact X'.
      - cbn [map w_cells]. rewrite C'. reflexivity. }
    assert (NM : forall k, fine_names k -> GNames (names_tok k) k) by (intros k Hk; apply gn_names, Hk).
    destruct n as [|a n]; [|destruct n as [|b n]; [|destruct n as [|c n]]].
    + apply (K [] None [] []); [destruct first; [reflexivity|rewrite tokens_space; reflexivity]|constructor|reflexivity|constructor|reflexivity].
    + apply (K [] (Some [a]) [names_tok [a]] []); [|constructor|reflexivity|constructor; apply NM, Hn|reflexivity].
      rewrite tokens_app. replace (tokens (if first then [] else space minify)) with (@nil tok) by (destruct first; [reflexivity|rewrite tokens_space; reflexivity]).
      cbn [app]. unfold tokens. cbn [flat_map app]. fold (tokens (space minify)). rewrite tokens_space. reflexivity.
    + destruct minify eqn:Em.
      * apply (K [] (Some [a; b]) [names_tok [a; b]] []); [reflexivity|constructor|reflexivity|constructor; apply NM, Hn|reflexivity].
      * apply (K [names_tok [a]] (Some [b]) [names_tok [b]] [a]); [reflexivity|constructor; apply NM; constructor; [exact (Forall_inv Hn)|constructor]| |constructor; apply NM; exact (Forall_inv_tail Hn)|reflexivity].
        intros [X|X]; [discriminate|cbn in X; lia].
    + apply (K [] (Some (a :: b :: c :: n)) [names_tok (a :: b :: c :: n)] []); [|constructor|reflexivity|constructor; apply NM, Hn|reflexivity].
      rewrite tokens_app. replace (tokens (if first then [] else space minify)) with (@nil tok) by (destruct first; [reflexivity|rewrite tokens_space; reflexivity]).
      cbn [app]. unfold tokens. cbn [flat_map app]. fold (tokens (space minify)). rewrite tokens_space. reflexivity.
Qed.
Lemma rows_apart (cells : list (list cell)) : forall names items p first, apart p (print_rows minify first names items cells).
Proof.
  assert (SP : forall p l, (forall q, apart q l) -> apart p (space minify ++ l)) by (intros p l H; unfold space; destruct minify; cbn; apply H).
  assert (NT : forall p n l, (forall q, free q -> apart q l) -> apart p (T (names_tok n) :: l)).
  { intros p n l H. cbn [apart]. split; [destruct p; cbn; tauto|]. apply H. cbn. tauto. }
  induction cells as [|r cells IH]; intros names items p first; cbn [print_rows].
  - destruct names as [|[|a n] ns]; try exact I. apply SP. intros q. apply NT. intros. exact I.
  - set (after := match items with [] => [] | i :: _ => _ end).
    assert (R : forall q, apart q (T (row_tok minify r) :: after ++ print_rows minify false (List.tl names) (List.tl items) cells)).
    { intros q. cbn [apart]. split; [destruct q; cbn; tauto|]. apply apart_app; [|apply IH]. unfold after. destruct items as [|i items]; [exact I|].
      destruct (match i with One s => is_auto s | _ => false end); [exact I|]. unfold space. destruct minify; cbn; [split; [tauto|exact I]|split; exact I]. }
    destruct names as [|[|a [|b [|c n]]] ns]; cbn [app].
    + destruct first; [apply R|]. apply SP. exact R.
    + destruct first; [apply R|]. apply SP. exact R.
    + destruct first; cbn [app]; rewrite <- ?List.app_assoc; [|apply SP; intros]; apply NT; intros; apply SP; exact R.
    + destruct minify eqn:Em; [apply NT; intros; apply R|]. cbn. split; [exact I|]. split; [exact I|]. apply (R None).
    + destruct first; cbn [app]; rewrite <- ?List.app_assoc; [|apply SP; intros]; apply NT; intros; apply SP; exact R.
Qed.
End Printing.
