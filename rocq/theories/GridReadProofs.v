(** * Every value of the grammar is read to the value with its meaning *)
From Coq Require Import List Bool QArith ZArith Ascii String Lia.
From Verif Require Import AnimModel GridModel GridSpec.
Import ListNotations.
Local Open Scope nat_scope.
Local Open Scope string_scope.
Local Open Scope list_scope.

Local Arguments is_kw kw s : simpl never.
Local Arguments reserved s : simpl never.
Local Arguments parse_string s : simpl never.
Local Arguments blank c : simpl never.
Local Arguments dot c : simpl never.
Local Arguments name_char c : simpl never.

(** The values that the parsers give for meanings *)
Definition item_of (t : track) : item :=
  match t with TSize s => One s | TRepeat c (n, l) => Repeat c (n :: map snd l) (map fst l) end.
Definition tracks_val (s : strip) : tracks := TrackList (fst s :: map snd (snd s)) (map (fun p => item_of (fst p)) (snd s)).
Definition sizing_val (o : option strip) : sizing := match o with None => NoTracks | Some s => Tracks (tracks_val s) end.
Definition areas_val (o : option (list (list cell))) : areas :=
  match o with None => NoAreas | Some rows => Areas (columns_of rows) (List.concat rows) end.
Definition sizes_val (l : list size) : list size := match l with [s] => if is_auto s then [] else l | _ => l end.
Definition template_val (t : three) : template := Template (sizing_val (y_rows t)) (sizing_val (y_columns t)) (areas_val (y_areas t)).
Definition grid_val (g : six) : grid :=
  Grid (sizing_val (y_rows (x_three g))) (sizing_val (y_columns (x_three g))) (areas_val (y_areas (x_three g)))
    (sizes_val (x_auto_rows g)) (sizes_val (x_auto_columns g)) (x_flow g).

Lemma is_kw_true kw s : Is kw s -> is_kw kw s = true.
Proof. unfold Is, is_kw. intros ->. apply String.eqb_refl. Qed.
Lemma is_kw_false kw s : ~ Is kw s -> is_kw kw s = false.
Proof. unfold Is, is_kw. intros H. apply String.eqb_neq. exact H. Qed.
Lemma is_kw_other kw kw' s : Is kw s -> kw <> kw' -> is_kw kw' s = false.
Proof. unfold Is, is_kw. intros -> H. apply String.eqb_neq. exact H. Qed.
Lemma css_name_free s : css_name s -> reserved s = false /\ is_kw "span" s = false /\ is_kw "auto" s = false.
Proof.
  unfold css_name. rewrite Forall_forall. intros H. repeat split; [|apply is_kw_false, H; cbn; tauto|apply is_kw_false, H; cbn; tauto].
  unfold reserved. cbn [existsb]. rewrite !is_kw_false; [reflexivity|..]; apply H; cbn; tauto.
Qed.
Ltac kw H := first [rewrite (is_kw_true _ _ H) | rewrite (is_kw_other _ _ _ H) by discriminate].

Lemma read_length t l : GLength t l -> parse_length t = Some l.
Proof. destruct 1; reflexivity. Qed.
Lemma read_breadth fl t b : GBreadth fl t b -> parse_breadth fl t = Some b.
Proof.
  intros H. inversion H; subst.
  - unfold parse_breadth. rewrite (read_length _ _ H0). reflexivity.
  - cbn. replace (Qle_bool 0 q) with true by (symmetry; apply Qle_bool_iff; assumption). reflexivity.
  - cbn. repeat kw H0. reflexivity.
  - cbn. repeat kw H0. reflexivity.
  - cbn. repeat kw H0. reflexivity.
Qed.
Lemma read_size t s : GSize t s -> parse_size t = Some s.
Proof.
  intros H. inversion H; subst; unfold parse_size.
  - rewrite (read_breadth _ _ _ H0). reflexivity.
  - cbn [parse_breadth parse_length]. kw H0. rewrite (read_breadth _ _ _ H1), (read_breadth _ _ _ H2). reflexivity.
  - cbn [parse_breadth parse_length]. repeat kw H0. rewrite (read_length _ _ H1). reflexivity.
Qed.
Lemma read_idents l : Forall css_name l -> all_idents (map Word l) = Some l.
Proof.
  induction 1 as [|n l H _ IH]; [reflexivity|]. cbn. destruct (css_name_free _ H) as (-> & _). rewrite IH. reflexivity.
Qed.
Lemma read_names t n : GNames t n -> parse_names t = Some n.
Proof. destruct 1. apply read_idents. assumption. Qed.
Lemma size_not_names t s : GSize t s -> parse_names t = None.
Proof. intros H. inversion H; subst; [|reflexivity|reflexivity]. inversion H0; subst; [|reflexivity..]. inversion H1; reflexivity. Qed.
Lemma track_not_names t s : GTrack t s -> parse_names t = None.
Proof. intros H. inversion H; subst; [|reflexivity]. eapply size_not_names; eassumption. Qed.

Section Loop.
Context {A B : Type} (item : tok -> option A) (G : tok -> B -> Prop) (val : B -> A).
Hypothesis reads : forall t b, G t b -> item t = Some (val b).
Hypothesis not_names : forall t b, G t b -> parse_names t = None.
Definition stops (rest : list tok) : Prop := match rest with [] => True | t :: _ => parse_names t = None /\ item t = None end.
Lemma read_loop r l : GTail G r l -> forall ns n rest, GNamesOpt ns n -> stops rest ->
  track_loop item (ns ++ r ++ rest) = (n :: map snd l, map (fun p => val (fst p)) l, rest).
Proof.
  induction 1 as [|t i ms m r l Ht Hm _ IH]; intros ns n rest Hn Hs.
  - cbn [app map]. destruct Hn as [|t n Hn].
    + cbn [app]. destruct rest as [|u rest]; [reflexivity|]. destruct Hs as [E1 E2]. cbn. rewrite E1, E2. reflexivity.
    + cbn. rewrite (read_names _ _ Hn). destruct rest as [|u rest]; [reflexivity|]. destruct Hs as [E1 E2]. rewrite E2. reflexivity.
  - specialize (IH ms m rest Hm Hs). destruct Hn as [|u n Hn].
    + cbn. rewrite (not_names _ _ Ht), (reads _ _ Ht), <- List.app_assoc, IH. reflexivity.
    + cbn. rewrite (read_names _ _ Hn), (reads _ _ Ht), <- List.app_assoc, IH. reflexivity.
Qed.
Lemma read_strip l s rest : GStrip G l s -> stops rest ->
  track_loop item (l ++ rest) = (fst s :: map snd (snd s), map (fun p => val (fst p)) (snd s), rest).
Proof. intros H Hs. destruct H as [ns n r l Hn Hr Hl]. rewrite <- List.app_assoc. apply read_loop; assumption. Qed.
End Loop.

Lemma read_count t c : GCount t c -> parse_count t = Some c.
Proof. intros H. inversion H; subst; cbn; [reflexivity|repeat kw H0; reflexivity|repeat kw H0; reflexivity]. Qed.
Lemma read_track t i : GTrack t i -> parse_item t = Some (item_of i).
Proof.
  intros H. inversion H; subst; unfold parse_item.
  - rewrite (read_size _ _ H0). reflexivity.
  - destruct s as [n l']. unfold parse_size. cbn [parse_breadth parse_length]. repeat kw H0. cbn [parse_repeat]. kw H0.
    rewrite (read_count _ _ H1).
    pose proof (read_strip parse_size GSize (fun s => s) read_size size_not_names l (n, l') [] H2 I) as E.
    rewrite app_nil_r in E. rewrite E. reflexivity.
Qed.
Lemma read_tracks l s rest : GStrip GTrack l s -> stops parse_item rest -> parse_tracks (l ++ rest) = Some (tracks_val s, rest).
Proof.
  intros H Hs. unfold parse_tracks. rewrite (read_strip parse_item GTrack item_of read_track track_not_names l s rest H Hs).
  destruct s as [n its]. cbn [fst snd]. inversion H; subst. destruct its as [|i its]; [congruence|]. reflexivity.
Qed.
(** The first token of tracks *)
Lemma strip_head l s : GStrip GTrack l s -> exists t r, l = t :: r /\ word "none" t = false /\ t <> Slash /\ (forall x, t <> Str x).
Proof.
  intros H. destruct H as [ns n r l Hn Hr Hl]. destruct Hn as [|t n Hn].
  - destruct Hr as [|t i ms m r l Ht Hm Hr]; [congruence|]. exists t, (ms ++ r). split; [reflexivity|].
    inversion Ht; subst; [|repeat split; discriminate]. inversion H; subst; [|repeat split; discriminate|repeat split; discriminate].
    inversion H0; subst; [inversion H1; subst; repeat split; discriminate|repeat split; discriminate|..];
      (split; [cbn; kw H1; reflexivity|split; discriminate]).
  - exists t, r. destruct Hn. repeat split; discriminate.
Qed.
Lemma read_sizing l o rest : GSizing l o -> stops parse_item rest -> parse_sizing (l ++ rest) = Some (sizing_val o, rest).
Proof.
  intros H Hs. destruct H as [s E|l s H].
  - cbn. kw E. reflexivity.
  - destruct (strip_head _ _ H) as (t & r & -> & E & _). unfold parse_sizing. cbn [app]. rewrite E.
    change (t :: r ++ rest) with ((t :: r) ++ rest). rewrite (read_tracks _ _ _ H Hs). reflexivity.
Qed.
Lemma slash_stops r : stops parse_item (Slash :: r).
Proof. split; reflexivity. Qed.

Lemma read_size_loop l s : Forall2 GSize l s -> forall rest, (match rest with [] => True | t :: _ => parse_size t = None end) -> size_loop (l ++ rest) = (s, rest).
Proof.
  induction 1 as [|t z l s H _ IH]; intros rest Hr.
  - destruct rest; [reflexivity|]. cbn. rewrite Hr. reflexivity.
  - cbn. rewrite (read_size _ _ H), (IH _ Hr). reflexivity.
Qed.
Lemma read_sizes l s rest : GSizes l s -> (match rest with [] => True | t :: _ => parse_size t = None end) -> parse_sizes (l ++ rest) = (sizes_val s, rest).
Proof. intros [H _] Hr. unfold parse_sizes. rewrite (read_size_loop _ _ H _ Hr). reflexivity. Qed.
Lemma read_sizes_opt l s rest : GSizesOpt l s -> (match rest with [] => True | t :: _ => parse_size t = None end) -> parse_sizes (l ++ rest) = (sizes_val s, rest).
Proof.
  intros H Hr. destruct H as [|l s H]; [|apply read_sizes; assumption].
  cbn [app]. unfold parse_sizes. destruct rest as [|t rest]; [reflexivity|]. cbn. rewrite Hr. reflexivity.
Qed.

(** ** Areas *)
Lemma blank_iff c : blank c = true <-> is_blank c.
Proof.
  unfold is_blank. cbn [map In]. split.
  - destruct c as [[] [] [] [] [] [] [] []]; vm_compute; intros H; try discriminate H; tauto.
  - intros H. decompose [or] H; subst; try reflexivity. contradiction.
Qed.
Lemma dot_iff c : dot c = true <-> is_dot c.
Proof. unfold is_dot. split; [|intros ->; reflexivity]. destruct c as [[] [] [] [] [] [] [] []]; vm_compute; intros H; try discriminate H; reflexivity. Qed.
Lemma name_iff c : name_char c = true <-> is_name c.
Proof.
  unfold name_char, is_name, within, code. rewrite !orb_true_iff, !andb_true_iff, !Nat.leb_le, !Nat.eqb_eq. split.
  - intros [[[[[H|H]|H]|H]|H]|H]; try tauto.
    + right; right; right; left. rewrite <- (ascii_nat_embedding c), H. reflexivity.
    + do 4 right; left. rewrite <- (ascii_nat_embedding c), H. reflexivity.
  - intros H. decompose [or and] H; subst; try tauto.
Qed.
Lemma drop_all p P (E : forall c, p c = true <-> P c) w s : all_chars P w -> (match s with "" => True | String c _ => p c = false end)%string -> drop_while p (w ++ s)%string = s.
Proof.
  intros H Hs. induction w as [|c w IH]; cbn in *.
  - destruct s; [reflexivity|]. cbn. rewrite Hs. reflexivity.
  - destruct H as [Hc Hw]. apply E in Hc. rewrite Hc. apply IH, Hw.
Qed.
Lemma take_all p P (E : forall c, p c = true <-> P c) w s : all_chars P w -> (match s with "" => True | String c _ => p c = false end)%string -> take_while p (w ++ s)%string = w.
Proof.
  intros H Hs. induction w as [|c w IH]; cbn in *.
  - destruct s; [reflexivity|]. cbn. rewrite Hs. reflexivity.
  - destruct H as [Hc Hw]. apply E in Hc. rewrite Hc. f_equal. apply IH, Hw.
Qed.
Lemma not_starts p P (E : forall c, p c = true <-> P c) s : ~ starts P s -> match s with "" => True | String c _ => p c = false end%string.
Proof. destruct s as [|c s]; [exact (fun _ => I)|]. cbn. intros H. destruct (p c) eqn:F; [|reflexivity]. apply E in F. contradiction. Qed.
Lemma length_app a b : String.length (a ++ b)%string = String.length a + String.length b.
Proof. induction a as [|c a IH]; [reflexivity|]. cbn. rewrite IH. reflexivity. Qed.
Lemma name_not_blank c : is_name c -> blank c = false /\ dot c = false.
Proof. intros H. apply name_iff in H. revert H. destruct c as [[] [] [] [] [] [] [] []]; vm_compute; intros H; try discriminate H; split; reflexivity. Qed.
Lemma dot_not_blank c : is_dot c -> blank c = false.
Proof. intros ->. reflexivity. Qed.
Lemma append_assoc a b c : ((a ++ b) ++ c)%string = (a ++ (b ++ c))%string.
Proof. induction a as [|x a IH]; [reflexivity|]. cbn. rewrite IH. reflexivity. Qed.
Lemma append_nil s : (s ++ "")%string = s.
Proof. induction s as [|x a IH]; [reflexivity|]. cbn. rewrite IH. reflexivity. Qed.

Lemma read_cells s l : GCells s l -> forall fuel, String.length s < fuel -> cells_loop fuel s = Some l.
Proof.
  induction 1 as [s H|w n s l Hw Hn Hc Hs _ IH|w d s l Hw Hd Hc Hs _ IH]; intros [|fuel] F; try lia; cbn [cells_loop].
  - replace (drop_while blank s) with ""%string; [reflexivity|].
    rewrite <- (drop_all blank is_blank blank_iff s "" H I). f_equal. rewrite append_nil. reflexivity.
  - destruct n as [|c n]; [congruence|]. pose proof Hc as [H1 H2].
    destruct (name_not_blank _ H1) as [B D].
    rewrite (drop_all blank is_blank blank_iff w _ Hw) by (cbn; exact B).
    change (String c n ++ s)%string with (String c (n ++ s)). cbv beta iota zeta. rewrite D. pose proof (proj2 (name_iff c) H1) as N. rewrite N.
    change (String c (n ++ s)) with (String c n ++ s)%string.
    rewrite (take_all name_char is_name name_iff (String c n) s Hc), (drop_all name_char is_name name_iff (String c n) s Hc)
      by (apply (not_starts name_char is_name name_iff), Hs).
    rewrite IH; [reflexivity|]. rewrite !length_app in F. cbn in F. lia.
  - destruct d as [|c d]; [congruence|]. pose proof Hc as [H1 H2].
    rewrite (drop_all blank is_blank blank_iff w _ Hw) by (cbn; apply dot_not_blank, H1).
    change (String c d ++ s)%string with (String c (d ++ s)). cbv beta iota zeta. pose proof (proj2 (dot_iff c) H1) as N. rewrite N.
    change (String c (d ++ s)) with (String c d ++ s)%string.
    rewrite (drop_all dot is_dot dot_iff (String c d) s Hc) by (apply (not_starts dot is_dot dot_iff), Hs).
    rewrite IH; [reflexivity|]. rewrite !length_app in F. cbn in F. lia.
Qed.
Lemma read_row_string s l : GCells s l -> l <> [] -> parse_string s = Some l.
Proof. intros H Hl. unfold parse_string. rewrite (read_cells _ _ H) by lia. destruct l; [congruence|reflexivity]. Qed.

Lemma read_area_loop l rows : Forall2 (fun t r => exists s, t = Str s /\ GCells s r) l rows -> forall n,
  Forall (fun r => List.length r = n /\ r <> []) rows -> area_loop false n l = Some (n, List.concat rows, []).
Proof.
  induction 1 as [|t r l rows (s & -> & H) _ IH]; intros n Hn; [reflexivity|].
  pose proof (Forall_inv Hn) as [E1 E2]. pose proof (Forall_inv_tail Hn) as Hn'.
  cbn. rewrite (read_row_string _ _ H E2), E1, Nat.eqb_refl, (IH _ Hn'). reflexivity.
Qed.
Lemma read_areas l o : GAreas l o -> parse_areas l = Some (areas_val o, []).
Proof.
  intros H. destruct H as [s E|l rows H (Hr & Hn & _)].
  - cbn. kw E. reflexivity.
  - destruct H as [|t r l rows (s & -> & H) H']; [congruence|]. cbn [columns_of] in Hn.
    pose proof (Forall_inv Hn) as [E1 E2]. pose proof (Forall_inv_tail Hn) as Hn'.
    cbn. rewrite (read_row_string _ _ H E2), (read_area_loop _ _ H' _ Hn'). reflexivity.
Qed.
