(** * The shorthands that are printed *)
From Coq Require Import List Bool QArith ZArith Ascii String Lia.
From Verif Require Import AnimModel GridModel GridSpec GridReadProofs GridTemplateProofs GridPrintProofs.
Import ListNotations.
Local Open Scope nat_scope.
Local Open Scope string_scope.
Local Open Scope list_scope.
Local Arguments is_kw kw s : simpl never.
Local Arguments reserved s : simpl never.

Section Printing.
Variable minify : bool.

(** ** Lines *)
Lemma print_line_ok x y : line_means x y -> GLine (tokens (print_line x)) y.
Proof.
  intros [[-> H]|(s & z & -> & E & Z1 & ->)].
  - destruct y as [|n|z [n|]|z [n|]]; cbn [print_line tokens flat_map app]; cbn in H.
    + apply gln_auto. reflexivity.
    + apply gln_area, H.
    + destruct H as [H1 H2]. apply gln_both; [exact H1|apply H2; reflexivity].
    + apply gln_int, H.
    + destruct H as [H1 H2]. destruct (Z.eqb_spec z 1) as [->|Hz]; cbn [negb app flat_map].
      * apply gln_span; [reflexivity|]. apply gsp_name, H2. reflexivity.
      * apply gln_span; [reflexivity|]. apply gsp_both; [exact H1|apply H2; reflexivity].
    + destruct H as [H1 H2]. apply gln_span; [reflexivity|]. apply gsp_int, H1.
  - cbn. apply (gln_span_last s [Int z]); [exact E|]. apply gsp_int, Z1.
Qed.
Lemma line_apart p x : free p -> apart p (print_line x).
Proof.
  intros H. assert (F : forall t r, apart (Some t) r -> apart p (T t :: r)). { intros t r A. cbn [apart]. split; [destruct p; cbn in *; tauto|exact A]. }
  destruct x as [|n|z [n|]|z [n|]]; cbn [print_line]; apply F; try (cbn; tauto). destruct (negb (Z.eqb z 1)); cbn; tauto.
Qed.
Lemma omit_opposite x1 y1 x2 y2 : line_means x1 y1 -> line_means x2 y2 -> can_omit_end x1 x2 = true -> y2 = opposite y1.
Proof.
  intros M1 M2 H. assert (A : forall y, line_means LAuto y -> y = LAuto) by (intros y [[<- _]|(? & ? & E & _)]; [reflexivity|discriminate]).
  destruct M1 as [[-> F]|(s & z & -> & _ & _ & ->)].
  - destruct y1; cbn in H; destruct x2; try discriminate; try (apply A; exact M2).
    destruct M2 as [[<- _]|(? & ? & E & _)]; [|discriminate]. apply String.eqb_eq in H. subst. reflexivity.
  - cbn in H. destruct x2; try discriminate. apply A, M2.
Qed.
Lemma print_pair_ok x1 y1 x2 y2 : line_means x1 y1 -> line_means x2 y2 -> GPair (tokens (print_pair minify x1 x2)) (y1, y2).
Proof.
  intros M1 M2. unfold print_pair. destruct (can_omit_end x1 x2) eqn:E.
  - rewrite app_nil_r. rewrite (omit_opposite _ _ _ _ M1 M2 E). apply gp_one, print_line_ok, M1.
  - rewrite tokens_slash. apply gp_two; apply print_line_ok; assumption.
Qed.
Lemma pair_apart x y : apart None (print_pair minify x y).
Proof.
  unfold print_pair. apply apart_app; [apply line_apart; exact I|]. destruct (can_omit_end x y); [exact I|]. apply slash_apart, line_apart, slash_free.
Qed.
Lemma print_area_ok x1 y1 x2 y2 x3 y3 x4 y4 : line_means x1 y1 -> line_means x2 y2 -> line_means x3 y3 -> line_means x4 y4 ->
  GFour (tokens (print_area minify (Area x1 x2 x3 x4))) (y1, y2, y3, y4).
Proof.
  intros M1 M2 M3 M4. unfold print_area. destruct (can_omit_end x2 x4) eqn:E4; cbn [andb].
  - rewrite (omit_opposite _ _ _ _ M2 M4 E4). destruct (can_omit_end x1 x3) eqn:E3; cbn [andb].
    + rewrite (omit_opposite _ _ _ _ M1 M3 E3). destruct (can_omit_end x1 x2) eqn:E2; cbn [andb app].
      * rewrite (omit_opposite _ _ _ _ M1 M2 E2). rewrite app_nil_r. replace (opposite (opposite y1)) with (opposite y1) by (destruct y1; reflexivity).
        apply g4_one, print_line_ok, M1.
      * rewrite app_nil_r, tokens_slash. apply g4_two; apply print_line_ok; assumption.
    + rewrite app_nil_r. rewrite <- List.app_assoc, tokens_slash, tokens_slash. apply g4_three; apply print_line_ok; assumption.
  - rewrite <- !List.app_assoc. rewrite !tokens_slash. apply g4_four; apply print_line_ok; assumption.
Qed.
Lemma area_apart a : apart None (print_area minify a).
Proof.
  destruct a as [x1 x2 x3 x4]. unfold print_area.
  assert (S : forall b p x, apart p (if b : bool then [] else slash minify ++ print_line x)).
  { intros b p x. destruct b; [exact I|]. apply slash_apart, line_apart, slash_free. }
  apply apart_app; [apply line_apart; exact I|]. apply apart_app; [apply S|]. apply apart_app; apply S.
Qed.

(** ** Padding *)
Definition pad_rows (n : nat) (rows : list (list cell)) : list (list cell) := rows ++ repeat (repeat None (columns_of rows)) (n - List.length rows).
Lemma cell_at_pad n rows r c : cell_at (pad_rows n rows) r c = cell_at rows r c.
Proof.
  unfold cell_at, pad_rows. destruct (Nat.ltb_spec r (List.length rows)) as [L|L].
  - rewrite nth_error_app1 by exact L. reflexivity.
  - rewrite nth_error_app2 by exact L. rewrite (proj2 (nth_error_None rows r) L).
    destruct (nth_error (repeat _ _) _) as [l|] eqn:E; [|reflexivity]. apply nth_error_In, repeat_spec in E. subst l.
    match goal with |- match ?e with _ => _ end = _ => destruct e as [x|] eqn:E2 end; [|reflexivity]. apply nth_error_In, repeat_spec in E2. exact E2.
Qed.
Lemma pad_columns n rows : rows <> [] -> columns_of (pad_rows n rows) = columns_of rows.
Proof. destruct rows; [congruence|reflexivity]. Qed.
Lemma pad_fine n rows : fine_rows rows -> fine_rows (pad_rows n rows).
Proof.
  intros [(N & H & R) F]. split; [split; [|split]|].
  - unfold pad_rows. destruct rows; [congruence|discriminate].
  - rewrite (pad_columns _ _ N). unfold pad_rows. apply Forall_app. split; [exact H|]. apply Forall_forall. intros x Hx. apply repeat_spec in Hx. subst x.
    rewrite repeat_length. split; [reflexivity|]. destruct rows as [|r rows]; [congruence|]. pose proof (Forall_inv H) as [_ E]. cbn. destruct r; [congruence|discriminate].
  - intros m. destruct (R m) as (r1 & r2 & c1 & c2 & Q). exists r1, r2, c1, c2. intros r c. rewrite cell_at_pad. apply Q.
  - unfold pad_rows. apply Forall_app. split; [exact F|]. apply Forall_forall. intros x Hx. apply repeat_spec in Hx. subst x.
    apply Forall_forall. intros y Hy. apply repeat_spec in Hy. subst y. discriminate.
Qed.
Lemma concat_repeat c : forall k, List.concat (repeat (repeat (@None string) c) k) = repeat None (k * c).
Proof. induction k as [|k IH]; [reflexivity|]. cbn. rewrite IH, repeat_app. reflexivity. Qed.
Lemma concat_length rows c : Forall (fun r : list cell => List.length r = c /\ r <> []) rows -> List.length (List.concat rows) = List.length rows * c.
Proof. induction 1 as [|r rows [H _] _ IH]; [reflexivity|]. cbn. rewrite app_length, IH, H. reflexivity. Qed.
Lemma pad_ok s rows : fine_rows rows -> List.length rows <= List.length (snd s) ->
  pad (Tracks (tracks_val s)) (areas_val (Some rows)) = Some (areas_val (Some (pad_rows (List.length (snd s)) rows))).
Proof.
  intros [(N & H & R) F] L. cbn [pad areas_val]. rewrite (pad_columns _ _ N). rewrite (concat_length _ _ H).
  assert (C : 0 < columns_of rows). { destruct rows as [|r rows]; [congruence|]. pose proof (Forall_inv H) as [_ E]. cbn. destruct r; [congruence|cbn; lia]. }
  destruct (Nat.eqb_spec (columns_of rows) 0); [lia|]. rewrite Nat.div_mul by lia. unfold tracks_val. cbn [t_items]. rewrite map_length.
  unfold pad_rows. rewrite concat_app, concat_repeat. destruct (Nat.ltb_spec (List.length rows) (List.length (snd s))) as [X|X]; [reflexivity|].
  replace (List.length (snd s) - List.length rows) with 0 by lia. cbn. rewrite app_nil_r. reflexivity.
Qed.
Lemma pad_length n rows : List.length rows <= n -> List.length (pad_rows n rows) = n.
Proof. intros H. unfold pad_rows. rewrite app_length, repeat_length. lia. Qed.

(** ** Templates *)
Definition ok_columns (c : option strip) : Prop := match c with Some c => explicit c | None => True end.
Definition template_fits (t : three) : Prop :=
  match y_areas t with
  | None => True
  | Some a => match y_rows t with Some s => explicit s /\ ok_columns (y_columns t) /\ List.length a = List.length (snd s) /\ (minify = false -> List.length (fst s) <> 2) | None => False end
  end.
Definition fine_three (t : three) : Prop := fine_sizing minify (y_rows t) /\ fine_sizing minify (y_columns t) /\ fine_areas (y_areas t).
Lemma explicit_items s : explicit s -> forallb explicit_item (t_items (tracks_val s)) = true.
Proof. apply explicit_val. Qed.
Lemma firstn_forallb {A} (p : A -> bool) l : forall n, forallb p l = true -> forallb p (firstn n l) = true.
Proof. induction l as [|a l IH]; intros [|n] H; try reflexivity. cbn in *. apply andb_true_iff in H. rewrite (proj1 H), IH; [reflexivity|apply H]. Qed.
Lemma print_template_ok t : fine_three t -> template_fits t ->
  exists pieces, print_template minify (template_val t) = Some pieces /\ apart None pieces /\ GTemplate (tokens pieces) t.
Proof.
  destruct t as [r c [a|]]; intros (Hr & Hc & Ha) F; unfold template_fits in F; cbn [y_rows y_columns y_areas] in *; unfold print_template, template_val; cbn [p_rows p_columns p_areas y_rows y_columns y_areas areas_val].
  - destruct r as [s|]; [|contradiction]. destruct F as (Fe & Fc & Fl & Fn). cbn [sizing_val]. destruct Ha as [Ha Hcells]. rewrite (rows_of_ok _ Ha).
    rewrite (firstn_forallb _ _ _ (explicit_items _ Fe)). destruct s as [n ts]. destruct Hr as (Hn & Ht & Hts). cbn [fst snd] in *.
    destruct (print_rows_ok minify a ts n true Fl Hcells Ht Fe Hn) as (pre & body & x & R & TT & Gp & Pe & G & X & A & C).
    assert (pre = []). { apply Pe; [apply Ha|]. destruct minify; [left; reflexivity|right; apply Fn; reflexivity]. }
    subst pre. inversion Gp; subst x. cbn [app] in TT.
    assert (TO : tracks_of R = (n, ts)). { unfold tracks_of. rewrite A. f_equal. exact X. }
    unfold tracks_val. cbn [t_names t_items fst snd].
    destruct c as [c|]; cbn [sizing_val].
    + eexists. split; [reflexivity|]. split.
      * apply apart_app; [apply rows_apart|]. apply slash_apart2, tracks_apart, slash_free.
      * rewrite tokens_app, TT. rewrite tokens_app, tokens_space. change (tokens (T Slash :: ?x)) with (Slash :: tokens x).
        unfold tokens at 1. cbn [app flat_map]. fold (tokens (space minify ++ print_tracks minify (tracks_val c))). rewrite tokens_app, tokens_space. cbn [app].
        rewrite <- TO, <- C. apply gtm_both; [exact G|rewrite C; exact Ha|apply print_tracks_ok, Hc|exact Fc].
    + eexists. split; [reflexivity|]. rewrite app_nil_r. split; [apply rows_apart|]. rewrite TT, <- TO, <- C. apply gtm_rows; [exact G|rewrite C; exact Ha].
  - assert (D : exists pieces, Some (print_sizing minify (sizing_val r) ++ slash minify ++ print_sizing minify (sizing_val c)) = Some pieces /\ apart None pieces /\ GTemplate (tokens pieces) (Three r c None)).
    { eexists. split; [reflexivity|]. split.
      - apply apart_app; [apply sizing_apart; exact I|]. apply slash_apart, sizing_apart, slash_free.
      - rewrite tokens_slash. apply gtm_tracks; apply print_sizing_ok; assumption. }
    destruct r; cbn [sizing_val] in *; [exact D|]. destruct c; cbn [sizing_val] in *; [exact D|].
    eexists. split; [reflexivity|]. split; [cbn; tauto|]. apply gtm_none. reflexivity.
Qed.

(** ** Grids *)
Lemma initial_flow_eq f : initial_flow f = true -> f = Flow false false.
Proof. destruct f as [[] []]; try discriminate. reflexivity. Qed.
Lemma print_flow_ok f : GFlow (tokens (print_flow minify f)) f /\ apart None (print_flow minify f).
Proof.
  destruct f as [[] []]; unfold print_flow; [| | destruct minify|]; (split; [|cbn; tauto]); cbn [tokens flat_map app]; constructor; reflexivity.
Qed.
(** [grid: none / ... auto-flow ...]: the columns and the automatic rows *)
Lemma print_grid_columns c f s1 : fine_sizing minify c -> fine_sizes s1 -> f_column f = false ->
  let pieces := auto_flow_text f (sizes_val s1) ++ slash minify ++ print_sizing minify (sizing_val c) in
  apart None pieces /\ GGrid (tokens pieces) (Six (Three None c None) s1 [Breadth BAuto] f).
Proof.
  intros Hc H1 Hf pieces. split.
  - apply apart_app; [apply auto_flow_apart; exact I|]. apply slash_apart, sizing_apart, slash_free.
  - unfold pieces. rewrite tokens_slash. destruct (auto_flow_ok f s1 H1) as (a & b & E & Ga & Gb). rewrite E, <- List.app_assoc.
    replace f with (Flow false (f_dense f)) by (destruct f; cbn in *; subst; reflexivity). apply gg_columns; [exact Ga|exact Gb|apply print_sizing_ok, Hc].
Qed.
Lemma print_grid_rows r f s2 : fine_sizing minify r -> fine_sizes s2 -> f_column f = true ->
  let pieces := print_sizing minify (sizing_val r) ++ slash minify ++ auto_flow_text f (sizes_val s2) in
  apart None pieces /\ GGrid (tokens pieces) (Six (Three r None None) [Breadth BAuto] s2 f).
Proof.
  intros Hr H2 Hf pieces. split.
  - apply apart_app; [apply sizing_apart; exact I|]. apply slash_apart, auto_flow_apart, slash_free.
  - unfold pieces. rewrite tokens_slash. destruct (auto_flow_ok f s2 H2) as (a & b & E & Ga & Gb). rewrite E.
    replace f with (Flow true (f_dense f)) by (destruct f; cbn in *; subst; reflexivity). apply gg_rows; [apply print_sizing_ok, Hr|exact Ga|exact Gb].
Qed.
Lemma no_tracks_val o : no_tracks (sizing_val o) = match o with None => true | Some _ => false end.
Proof. destruct o; reflexivity. Qed.
Lemma no_areas_val o : no_areas (areas_val o) = match o with None => true | Some _ => false end.
Proof. destruct o; reflexivity. Qed.
Lemma explicit_sizing_val o : explicit_sizing (sizing_val o) = true -> ok_columns o.
Proof. destruct o as [s|]; [|exact (fun _ => I)]. apply explicit_val. Qed.
(** A grid without areas *)
Lemma print_grid_plain r c s1 s2 f : fine_sizing minify r -> fine_sizing minify c -> fine_sizes s1 -> fine_sizes s2 ->
  grid_valid (sizing_val r) (sizing_val c) NoAreas (sizes_val s1) (sizes_val s2) f = true ->
  exists pieces, print_grid minify (Grid (sizing_val r) (sizing_val c) NoAreas (sizes_val s1) (sizes_val s2) f) = Some pieces /\ apart None pieces
    /\ GGrid (tokens pieces) (Six (Three r c None) s1 s2 f).
Proof.
  intros Hr Hc H1 H2 V. unfold grid_valid, print_grid in *. cbn [no_areas negb andb orb] in *. unfold template_valid in V. cbn [no_areas orb] in V.
  rewrite !no_tracks_val in *.
  destruct (no_sizes (sizes_val s1) && no_sizes (sizes_val s2) && initial_flow f) eqn:Ei.
  - rewrite orb_true_r. apply andb_true_iff in Ei. destruct Ei as [Ei Ef]. apply andb_true_iff in Ei. destruct Ei as [E1 E2].
    destruct (print_template_ok (Three r c None)) as (pieces & E & A & G); [repeat split; assumption|exact I|].
    exists pieces. split; [exact E|split; [exact A|]]. rewrite (no_sizes_val _ E1), (no_sizes_val _ E2), (initial_flow_eq _ Ef); [apply gg_template, G|apply H2|apply H1].
  - cbn [orb] in V. rewrite orb_false_r. apply orb_true_iff in V.
    destruct V as [V|V]; apply andb_true_iff in V; destruct V as [V Vs]; apply andb_true_iff in V; destruct V as [Vf Vt].
    + destruct r; [discriminate|]. cbn [negb andb orb]. apply negb_true_iff in Vf. rewrite Vf, Vs. cbn [negb orb]. eexists. split; [reflexivity|].
      rewrite (no_sizes_val _ Vs) by apply H2. apply print_grid_columns; assumption.
    + destruct c; [discriminate|]. rewrite Vf. cbn [negb]. rewrite andb_false_r, Vs. cbn [negb orb]. eexists. split; [reflexivity|].
      rewrite (no_sizes_val _ Vs) by apply H1. apply print_grid_rows; assumption.
Qed.
End Printing.
