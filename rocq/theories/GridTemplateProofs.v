(** * Reading [grid-template], [grid] and lines *)
From Coq Require Import List Bool QArith ZArith Ascii String Lia.
From Verif Require Import AnimModel GridModel GridSpec GridReadProofs.
Import ListNotations.
Local Open Scope nat_scope.
Local Open Scope string_scope.
Local Open Scope list_scope.
Local Arguments is_kw kw s : simpl never.
Local Arguments reserved s : simpl never.
Local Arguments parse_string s : simpl never.

Fixpoint names_result (names : list (list string)) (rows : list row) : list (list string) :=
  match rows with
  | [] => names
  | r :: rest => names_result ((match w_before r with Some n => extend_last names n | None => names end) ++ [w_after r]) rest
  end.
Lemma extend_last_app l m n : extend_last (l ++ [m]) n = l ++ [m ++ n].
Proof. induction l as [|x l IH]; [reflexivity|]. cbn. rewrite IH. destruct l; reflexivity. Qed.
Lemma names_result_app rows : forall l m, names_result (l ++ [m]) rows = l ++ (m ++ match rows with [] => [] | r :: _ => names_before r end) :: map snd (tracks_after rows).
Proof.
  induction rows as [|r rows IH]; intros l m; cbn [names_result].
  - cbn. rewrite app_nil_r. reflexivity.
  - cbn [tracks_after map snd]. unfold names_before at 1. destruct (w_before r) as [n|].
    + rewrite extend_last_app, IH, <- List.app_assoc. reflexivity.
    + rewrite IH, <- List.app_assoc, app_nil_r. reflexivity.
Qed.
Lemma names_result_nil r rows : names_result [] (r :: rows)
  = match w_before r with Some n => [n] | None => [] end ++ map snd (tracks_after (r :: rows)).
Proof.
  cbn [names_result]. destruct (w_before r) as [n|]; cbn [extend_last].
  - rewrite names_result_app. reflexivity.
  - change ([] ++ [w_after r]) with ([] ++ [w_after r])%list. rewrite names_result_app. reflexivity.
Qed.

Definition ends (rest : list tok) : Prop := match rest with [] => True | t :: _ => t = Slash end.
Lemma ends_not_size rest : ends rest -> match rest with [] => True | t :: _ => parse_size t = None end.
Proof. destruct rest as [|t r]; [exact (fun _ => I)|]. cbn. intros ->. reflexivity. Qed.
Lemma ends_names rest : ends rest -> try_names rest = (None, rest).
Proof. destruct rest as [|t r]; [reflexivity|]. cbn. intros ->. reflexivity. Qed.

Definition size_step (l : list tok) : size * list tok :=
  match l with
  | t :: r => match parse_size t with Some z => (z, r) | None => (Breadth BAuto, l) end
  | [] => (Breadth BAuto, [])
  end.
Lemma rows_not_size l rows rest : GRows l rows -> ends rest -> match l ++ rest with [] => True | t :: _ => parse_size t = None end.
Proof.
  intros H He. destruct H as [|a r b l H _]; [apply ends_not_size, He|].
  destruct H as [bf before s cells z sz a after Hb Hc Hz Ha]. destruct Hb as [|t n Hn]; [reflexivity|]. destruct Hn. reflexivity.
Qed.
Lemma names_not_size ns n l : GNamesOpt ns n -> match l with [] => True | t :: _ => parse_size t = None end -> match ns ++ l with [] => True | t :: _ => parse_size t = None end.
Proof. intros H Hl. destruct H as [|t n H]; [exact Hl|]. destruct H. reflexivity. Qed.
Lemma read_size_opt z sz l : GSizeOpt z sz -> match l with [] => True | t :: _ => parse_size t = None end -> size_step (z ++ l) = (sz, l).
Proof.
  intros H Hl. destruct H as [|t s H].
  - cbn [app]. destruct l as [|t l]; [reflexivity|]. cbn. rewrite Hl. reflexivity.
  - cbn. rewrite (read_size _ _ H). reflexivity.
Qed.

Lemma read_rows : forall k rows, List.length rows = k -> forall l, GRows l rows -> forall st fuel rest cols,
  Forall (fun r => List.length (w_cells r) = cols /\ w_cells r <> []) rows ->
  (r_sizes st <> [] -> r_columns st = cols) -> ends rest -> k < fuel ->
  template_loop fuel st (l ++ rest)
  = Some (Rows (names_result (r_names st) rows) (r_sizes st ++ map w_size rows) (match rows with [] => r_columns st | _ => cols end)
            (r_cells st ++ List.concat (map w_cells rows)), rest).
Proof.
  induction k as [|k IH]; intros rows Ek l H st fuel rest cols Hc Hs He Hf.
  - destruct rows; [|discriminate]. inversion H; subst. destruct fuel as [|fuel]; [lia|]. cbn [app template_loop].
    rewrite (ends_names _ He). destruct st as [ns ss cs ks]. cbn. rewrite !app_nil_r. destruct rest as [|t r]; [reflexivity|]. cbn in He. subst t. reflexivity.
  - destruct rows as [|r rows]; [discriminate|]. injection Ek as Ek. inversion H as [|a r' b l' Hr Hrs]; subst.
    destruct Hr as [bf before s cells z sz a0 after Hb Hcs Hz Ha].
    pose proof (Forall_inv Hc) as [C1 C2]. pose proof (Forall_inv_tail Hc) as Hc'. cbn [w_cells] in C1, C2.
    destruct fuel as [|fuel]; [lia|].
    set (tail := b ++ rest).
    assert (E : ((bf ++ Str s :: z ++ a0) ++ b) ++ rest = bf ++ Str s :: z ++ a0 ++ tail).
    { unfold tail. rewrite <- !List.app_assoc. cbn. rewrite <- !List.app_assoc. reflexivity. }
    rewrite E. clear E.
    assert (E1 : try_names (bf ++ Str s :: z ++ a0 ++ tail) = (before, Str s :: z ++ a0 ++ tail)).
    { destruct Hb as [|t n Hn]; [reflexivity|]. cbn. rewrite (read_names _ _ Hn). reflexivity. }
    cbn [template_loop]. rewrite E1. rewrite (read_row_string _ _ Hcs C2).
    assert (E2 : match r_sizes st with [] => List.length cells | _ => r_columns st end = cols).
    { destruct (r_sizes st) eqn:Es; [exact C1|]. apply Hs. discriminate. }
    rewrite E2, C1, Nat.eqb_refl. cbn [negb].
    fold (size_step (z ++ a0 ++ tail)).
    assert (N : match a0 ++ tail with [] => True | t :: _ => parse_size t = None end).
    { eapply names_not_size; [eassumption|]. unfold tail. eapply rows_not_size; eassumption. }
    rewrite (read_size_opt _ _ _ Hz N).
    assert (L : forall st' l2 rows2, List.length rows2 = List.length rows -> GRows l2 rows2 -> Forall (fun r => List.length (w_cells r) = cols /\ w_cells r <> []) rows2 ->
       r_sizes st' = r_sizes st ++ [sz] -> r_columns st' = cols -> r_cells st' = r_cells st ++ cells -> map w_size rows2 = map w_size rows -> map w_cells rows2 = map w_cells rows ->
       names_result (r_names st') rows2 = names_result (r_names st) (Row before cells sz after :: rows) ->
       template_loop fuel st' (l2 ++ rest) = Some (Rows (names_result (r_names st) (Row before cells sz after :: rows)) (r_sizes st ++ map w_size (Row before cells sz after :: rows)) cols
            (r_cells st ++ List.concat (map w_cells (Row before cells sz after :: rows))), rest)).
    { intros st' l2 rows2 El G2 F2 S1 S2 S3 M1 M2 M3. rewrite (IH rows2 El l2 G2 st' fuel rest cols F2 (fun _ => S2) He) by lia.
      rewrite M3, S1, S3, M1, M2, S2. cbn [map w_size w_cells List.concat]. rewrite <- !List.app_assoc. cbn [app].
      destruct rows2; reflexivity. }
    destruct Ha as [|t n Hn].
    + cbn [app]. inversion Hrs as [|a1 r1 b1 l1 Hr1 Hrs1]; subst.
      * unfold tail. cbn [app]. rewrite (ends_names _ He). cbn [default_names]. apply (L _ [] []); try reflexivity; constructor.
      * destruct Hr1 as [bf1 before1 s1 cells1 z1 sz1 a1 after1 Hb1 Hcs1 Hz1 Ha1]. destruct Hb1 as [|t1 n1 Hn1].
        -- unfold tail. cbn [app]. change (try_names (Str s1 :: ((z1 ++ a1) ++ b1) ++ rest)) with (@None (list string), (Str s1 :: (z1 ++ a1) ++ b1) ++ rest).
           cbn [default_names]. eapply (L _ _ _ eq_refl); try reflexivity; [|assumption].
           change (Str s1 :: (z1 ++ a1) ++ b1) with (([] ++ Str s1 :: z1 ++ a1) ++ b1). constructor; [constructor; try assumption; constructor|assumption].
        -- unfold tail. cbn [app try_names]. rewrite (read_names _ _ Hn1). cbn [default_names].
           apply (L _ (Str s1 :: (z1 ++ a1) ++ b1) (Row None cells1 sz1 after1 :: l1)); try reflexivity.
           ++ change (Str s1 :: (z1 ++ a1) ++ b1) with (([] ++ Str s1 :: z1 ++ a1) ++ b1). constructor; [constructor; try assumption; constructor|assumption].
           ++ constructor; [exact (Forall_inv Hc')|exact (Forall_inv_tail Hc')].
           ++ cbn [names_result r_names w_before w_after]. rewrite extend_last_app. reflexivity.
    + cbn [app try_names]. rewrite (read_names _ _ Hn). cbn [default_names]. unfold tail. eapply (L _ _ _ eq_refl); try reflexivity; assumption.
Qed.

(** The tracks are not taken for rows of areas *)
Lemma strip_no_rows l s rest : GStrip GTrack l s -> exists ns r, template_loop (S (List.length (l ++ rest))) (Rows [] [] 0 []) (l ++ rest) = Some (Rows ns [] 0 [], r).
Proof.
  intros H. destruct H as [ns n r l Hn Hr Hl]. destruct Hr as [|t i ms m r l Ht Hm Hr]; [congruence|].
  assert (E : forall x, t <> Str x).
  { inversion Ht; subst; [|discriminate]. inversion H; subst; [|discriminate|discriminate]. inversion H0; subst; try discriminate. inversion H1; discriminate. }
  destruct Hn as [|u n Hn]; cbn [template_loop app].
  - cbn [try_names]. rewrite (track_not_names _ _ Ht). do 2 eexists. destruct t; try reflexivity. destruct (E s eq_refl).
  - cbn [try_names]. rewrite (read_names _ _ Hn). do 2 eexists. destruct t; try reflexivity. destruct (E s eq_refl).
Qed.

(** Names are given for the line before the first row, or for no line *)
Definition first_named (rows : list row) : Prop :=
  match rows with [] => True | r :: _ => w_before r <> None \/ Forall (fun n => n = []) (map snd (tracks_after rows)) end.
Lemma tracks_after_length rows : List.length (tracks_after rows) = List.length rows.
Proof. induction rows as [|r rows IH]; [reflexivity|]. cbn. rewrite IH. reflexivity. Qed.
Lemma tracks_after_items rows : map (fun p => item_of (fst p)) (tracks_after rows) = map One (map w_size rows).
Proof. induction rows as [|r rows IH]; [reflexivity|]. cbn. rewrite IH. reflexivity. Qed.
Lemma push_empty (l : list (list string)) : Forall (fun n => n = []) l -> l ++ [[]] = [] :: l.
Proof. induction 1 as [|n l -> _ IH]; [reflexivity|]. cbn. rewrite IH. reflexivity. Qed.
Lemma rows_word l rows rest : GRows l rows -> rows <> [] -> exists t r, l ++ rest = t :: r /\ word "none" t = false /\ List.length rows < S (List.length (l ++ rest)).
Proof.
  intros H Hr. assert (N : List.length rows <= List.length l).
  { clear Hr. induction H as [|a r b l H _ IH]; [cbn; lia|]. rewrite app_length. cbn. destruct H. rewrite app_length. cbn. lia. }
  assert (L : List.length rows < S (List.length (l ++ rest))) by (rewrite app_length; lia).
  destruct H as [|a r b l H Hs]; [congruence|]. destruct H as [bf before s cells z sz a0 after Hb Hcs Hz Ha].
  destruct Hb as [|t n Hn]; [do 2 eexists; split; [reflexivity|split; [reflexivity|exact L]]|].
  destruct Hn. do 2 eexists; split; [reflexivity|split; [reflexivity|exact L]].
Qed.
Lemma read_template_rows l rows rest : GRows l rows -> area_rows (map w_cells rows) -> first_named rows -> ends rest ->
  template_loop (S (List.length (l ++ rest))) (Rows [] [] 0 []) (l ++ rest)
  = Some (Rows (names_result [] rows) (map w_size rows) (columns_of (map w_cells rows)) (List.concat (map w_cells rows)), rest)
  /\ (exists c cs, List.concat (map w_cells rows) = c :: cs)
  /\ (if Nat.eqb (List.length (names_result [] rows)) (List.length (map w_size rows)) then (names_result [] rows ++ [[]])%list else names_result [] rows)
     = fst (tracks_of rows) :: map snd (snd (tracks_of rows)).
Proof.
  intros H (Hr & Hn & _) Hf He. destruct rows as [|r rows]; [cbn in Hr; congruence|].
  destruct (rows_word _ _ rest H ltac:(discriminate)) as (t & x & E & _ & F).
  assert (C : Forall (fun x => List.length (w_cells x) = columns_of (map w_cells (r :: rows)) /\ w_cells x <> []) (r :: rows)).
  { revert Hn. generalize (columns_of (map w_cells (r :: rows))). generalize (r :: rows). clear. intros l n H. induction l; constructor; [exact (Forall_inv H)|apply IHl, (Forall_inv_tail H)]. }
  split; [|split].
  - rewrite (read_rows _ _ eq_refl l H _ _ rest _ C) by (try assumption; cbn; congruence). reflexivity.
  - cbn [map List.concat]. pose proof (Forall_inv C) as [_ N]. destruct (w_cells r) as [|c cs]; [congruence|]. do 2 eexists. reflexivity.
  - rewrite names_result_nil. cbn [tracks_of fst snd]. unfold names_before. cbn [first_named] in Hf. destruct (w_before r) as [n|].
    + rewrite app_length, !map_length, tracks_after_length. cbn [List.length].
      replace (Nat.eqb (1 + S (List.length rows)) (S (List.length rows))) with false by (symmetry; apply Nat.eqb_neq; lia). reflexivity.
    + cbn [app]. rewrite !map_length, tracks_after_length, Nat.eqb_refl. destruct Hf as [Hf|Hf]; [congruence|]. apply push_empty, Hf.
Qed.

Lemma explicit_val s : explicit s <-> explicit_tracks (tracks_val s) = true.
Proof.
  unfold explicit, explicit_tracks. destruct s as [n l]. cbn [snd t_items tracks_val]. induction l as [|[t m] l IH]; cbn; [split; [reflexivity|constructor]|].
  rewrite andb_true_iff, <- IH. split.
  - intros H. split; [|exact (Forall_inv_tail H)]. pose proof (Forall_inv H) as N. cbn in N. destruct t as [z|c [n' l']]; [reflexivity|contradiction].
  - intros [H1 H2]. constructor; [|exact H2]. cbn. destruct t as [z|c [n' l']]; [exact I|discriminate].
Qed.
Lemma rows_sizing_stop r : stops parse_item [] /\ stops parse_item (Slash :: r).
Proof. repeat split. Qed.
(** [grid-template]; only [none / ...] is not read *)
Lemma read_template l t : GTemplate l t ->
  (forall m rows b, l = m \/ l = m ++ Slash :: b -> GRows m rows -> first_named rows) ->
  parse_template l = Some (template_val t, []) \/ (parse_template l = None /\ exists s r c, l = Word s :: Slash :: r /\ Is "none" s /\ GSizing r c).
Proof.
  intros H Hf. destruct H as [s E|a b r c Ha Hb|l rows Hl Hc|l rows b c Hl Hc Hb Hx].
  - left. unfold parse_template. cbn [word]. kw E. reflexivity.
  - destruct Ha as [s E|a s Ha].
    + right. split; [|exists s, b, c; split; [reflexivity|split; assumption]]. unfold parse_template. cbn [app word]. kw E. reflexivity.
    + left. destruct (strip_head _ _ Ha) as (u & x & Eu & Ew & _).
      assert (P : parse_sizing (a ++ Slash :: b) = Some (Tracks (tracks_val s), Slash :: b)).
      { exact (read_sizing a (Some s) (Slash :: b) (gz_strip _ _ Ha) (slash_stops b)). }
      destruct (strip_no_rows a s (Slash :: b) Ha) as (ns & rr & T).
      unfold parse_template. rewrite T, P. rewrite Eu. cbn [app]. rewrite Ew. cbn [r_cells].
      pose proof (read_sizing b c [] Hb I) as Q. rewrite app_nil_r in Q. rewrite Q. reflexivity.
  - left. destruct (read_template_rows l rows [] Hl Hc (Hf l rows [] (or_introl eq_refl) Hl) I) as (T & (c & cs & E) & N). rewrite app_nil_r in T.
    destruct (rows_word l rows [] Hl) as (u & x & Eu & Ew & _); [destruct Hc as [Hc _]; intros ->; apply Hc; reflexivity|]. rewrite app_nil_r in Eu.
    unfold parse_template. rewrite T. rewrite Eu at 1. cbn [r_cells r_names r_sizes r_columns]. rewrite E, N. rewrite Ew.
    rewrite <- E. unfold template_val. cbn [y_rows y_columns y_areas sizing_val areas_val]. unfold tracks_val.
    cbn [snd tracks_of]. rewrite tracks_after_items. reflexivity.
  - left. destruct (read_template_rows l rows (Slash :: b) Hl Hc (Hf l rows b (or_intror eq_refl) Hl) eq_refl) as (T & (c' & cs & E) & N).
    destruct (rows_word l rows (Slash :: b) Hl) as (u & x & Eu & Ew & _); [destruct Hc as [Hc _]; intros ->; apply Hc; reflexivity|].
    unfold parse_template. rewrite T. rewrite Eu at 1. cbn [r_cells r_names r_sizes r_columns]. rewrite E, N. rewrite Ew.
    pose proof (read_tracks b c [] Hb I) as Q. rewrite app_nil_r in Q. rewrite Q. rewrite (proj1 (explicit_val c) Hx).
    rewrite <- E. unfold template_val. cbn [y_rows y_columns y_areas sizing_val areas_val]. unfold tracks_val.
    cbn [snd tracks_of]. rewrite tracks_after_items. reflexivity.
Qed.

Lemma read_flow l f : GFlow l f -> parse_flow l = Some (f, []) \/ (parse_flow l = None /\ exists s, l = [Word s] /\ Is "dense" s).
Proof.
  destruct 1; try (right; split; [unfold parse_flow; cbn [word]; repeat kw H; reflexivity|eauto]; fail);
  left; unfold parse_flow; cbn [word]; repeat first [kw H | kw H0]; reflexivity.
Qed.
Lemma read_auto_flow column l d rest : GAutoFlow l d -> (match rest with [] => True | t :: _ => word "dense" t = false end) ->
  parse_auto_flow column (l ++ rest) = Some (Flow column d, rest).
Proof.
  intros H Hr. destruct H; unfold parse_auto_flow; cbn [app word]; repeat first [kw H | kw H0]; try reflexivity.
  destruct rest as [|t rest]; [reflexivity|]. rewrite Hr. reflexivity.
Qed.
Lemma size_not_word t s kw : GSize t s -> kw <> "auto" -> kw <> "min-content" -> kw <> "max-content" -> word kw t = false.
Proof.
  intros H K1 K2 K3. inversion H; subst; [|reflexivity|reflexivity]. inversion H0; subst; [inversion H1; reflexivity|reflexivity|..]; cbn; eapply is_kw_other; try eassumption; congruence.
Qed.
Lemma sizes_not_dense z sizes rest : GSizesOpt z sizes -> (match rest with [] => True | t :: _ => word "dense" t = false end) ->
  match z ++ rest with [] => True | t :: _ => word "dense" t = false end.
Proof.
  intros H Hr. destruct H as [|l s [H N]]; [exact Hr|]. destruct H as [|t z l s H _]; [congruence|]. cbn [app].
  eapply size_not_word; [eassumption|discriminate..].
Qed.
Lemma flow_no_tracks l d rest : GAutoFlow l d -> parse_tracks (l ++ rest) = None /\ (exists t r, l ++ rest = t :: r /\ word "none" t = false)
  /\ template_loop (S (List.length (l ++ rest))) (Rows [] [] 0 []) (l ++ rest) = Some (Rows [] [] 0 [], l ++ rest).
Proof.
  assert (K : forall s x, Is "auto-flow" s \/ Is "dense" s -> parse_tracks (Word s :: x) = None /\ word "none" (Word s) = false).
  { intros s x H. unfold parse_tracks. cbn [track_loop parse_names]. unfold parse_item, parse_size. cbn [parse_breadth parse_length parse_repeat word].
    destruct H as [H|H]; repeat kw H; split; reflexivity. }
  intros H. destruct H as [s H|s d H H0|s d H H0]; cbn [app].
  - destruct (K s rest (or_introl H)). repeat split; eauto.
  - destruct (K s (Word d :: rest) (or_introl H)). repeat split; eauto.
  - destruct (K d (Word s :: rest) (or_intror H0)). repeat split; eauto.
Qed.

Lemma sizing_no_flow l o column : GSizing l o -> parse_auto_flow column l = None.
Proof.
  intros H. unfold parse_auto_flow. destruct H as [s E|l s H].
  - cbn [word]. repeat kw E. reflexivity.
  - destruct H as [ns n r l Hn Hr Hl]. destruct Hn as [|t n Hn]; [|destruct Hn; reflexivity].
    destruct Hr as [|t i ms m r l Ht Hm Hr]; [congruence|]. cbn [app].
    inversion Ht; subst; [|reflexivity]. rewrite !(size_not_word _ _ _ H) by discriminate. reflexivity.
Qed.
Lemma flow_no_sizing l d rest : GAutoFlow l d -> parse_sizing (l ++ rest) = None.
Proof.
  intros H. destruct (flow_no_tracks _ _ rest H) as (E & (t & r & Et & Ew) & _). unfold parse_sizing. rewrite Et in *. rewrite Ew, E. reflexivity.
Qed.
Lemma flow_no_template l d rest : GAutoFlow l d -> parse_template (l ++ rest) = None.
Proof.
  intros H. pose proof (flow_no_sizing _ _ rest H) as S. destruct (flow_no_tracks _ _ rest H) as (E & (t & r & Et & Ew) & L).
  unfold parse_template. rewrite L, S. rewrite Et at 1. rewrite Ew. reflexivity.
Qed.
Lemma read_grid l g : GGrid l g ->
  (forall m rows b, l = m \/ l = m ++ Slash :: b -> GRows m rows -> first_named rows) ->
  parse_grid l = Some (grid_val g, []) \/ (parse_grid l = None /\ exists s r, l = Word s :: Slash :: r /\ Is "none" s).
Proof.
  intros H Hf. destruct H as [l t H|a r f d z sizes Ha Hfl Hz|f d z sizes b c Hfl Hz Hb]; unfold parse_grid.
  - destruct (read_template _ _ H Hf) as [E|[E (s & r & c & -> & Es & Hs)]].
    + rewrite E. left. reflexivity.
    + rewrite E. right. split; [|exists s, r; split; [reflexivity|assumption]]. cbn [parse_sizing word]. kw Es. rewrite (sizing_no_flow _ _ true Hs). reflexivity.
  - left. assert (T : parse_template (a ++ Slash :: f ++ z) = None).
    { destruct Ha as [s E|a s Ha]; [unfold parse_template; cbn [app word]; kw E; reflexivity|].
      destruct (strip_head _ _ Ha) as (u & x & Eu & Ew & _).
      assert (P : parse_sizing (a ++ Slash :: f ++ z) = Some (Tracks (tracks_val s), Slash :: f ++ z)).
      { exact (read_sizing a (Some s) (Slash :: f ++ z) (gz_strip _ _ Ha) (slash_stops _)). }
      destruct (strip_no_rows a s (Slash :: f ++ z) Ha) as (ns & rr & T).
      unfold parse_template. rewrite T, P. rewrite Eu. cbn [app]. rewrite Ew. cbn [r_cells]. rewrite (flow_no_sizing _ _ z Hfl). reflexivity. }
    rewrite T, (read_sizing _ _ _ Ha (slash_stops _)).
    assert (D : match z with [] => True | t :: _ => word "dense" t = false end).
    { pose proof (sizes_not_dense z sizes [] Hz I) as D. rewrite app_nil_r in D. exact D. }
    rewrite (read_auto_flow _ _ _ _ Hfl D). cbn [option_map].
    pose proof (read_sizes_opt z sizes [] Hz I) as Q. rewrite app_nil_r in Q. rewrite Q. reflexivity.
  - left. rewrite (flow_no_template _ _ _ Hfl), (flow_no_sizing _ _ _ Hfl).
    rewrite (read_auto_flow _ _ _ _ Hfl) by (eapply sizes_not_dense; [eassumption|reflexivity]).
    rewrite (read_sizes_opt _ _ _ Hz) by reflexivity.
    pose proof (read_sizing b c [] Hb I) as Q. rewrite app_nil_r in Q. rewrite Q. reflexivity.
Qed.

(** ** Lines *)
Definition fine_line (l : line) : Prop :=
  match l with
  | LAuto => True | LArea n => css_name n
  | LLine z n => z <> 0%Z /\ (forall s, n = Some s -> css_name s)
  | LSpan z n => (1 <= z)%Z /\ (forall s, n = Some s -> css_name s)
  end.
(** [2 span] is read as the second line named [span], but printed as it was *)
Definition line_means (x y : line) : Prop :=
  (x = y /\ fine_line y) \/ (exists s z, x = LLine z (Some s) /\ Is "span" s /\ (1 <= z)%Z /\ y = LSpan z None).
Definition has_span (l : list tok) : Prop := exists s, In (Word s) l /\ Is "span" s.
Definition left_over (l : list tok) : Prop := match l with [] => False | t :: _ => t <> Slash end.
Lemma ends_ident rest : ends rest -> try_ident rest = (None, rest).
Proof. destruct rest as [|t r]; [reflexivity|]. cbn. intros ->. reflexivity. Qed.
Lemma ends_int rest : ends rest -> try_int rest = (None, rest).
Proof. destruct rest as [|t r]; [reflexivity|]. cbn. intros ->. reflexivity. Qed.
Lemma nonzero_some {A} z (a : A) : z <> 0%Z -> nonzero z a = Some a.
Proof. intros H. unfold nonzero. destruct (Z.eqb_spec z 0); [contradiction|reflexivity]. Qed.
Lemma span_not_reserved s : Is "span" s -> reserved s = false.
Proof. intros H. unfold reserved. cbn [existsb]. rewrite !(is_kw_other _ _ _ H) by discriminate. reflexivity. Qed.
Lemma read_line l y rest : GLine l y -> ends rest ->
  (exists x, parse_line (l ++ rest) = Some (x, rest) /\ line_means x y)
  \/ (exists x w, parse_line (l ++ rest) = Some (x, w) /\ left_over w /\ has_span l).
Proof.
  intros H He. destruct H as [s E|n N|z Z0|z n Z0 N|z n Z0 N|s l x E H|s l x E H]; unfold parse_line; cbn [app word].
  - left. kw E. eexists. split; [reflexivity|]. left. split; [reflexivity|exact I].
  - left. destruct (css_name_free _ N) as (R & S & A). rewrite S, A. cbn [try_int try_ident custom_ident]. rewrite R, (ends_int _ He).
    eexists. split; [reflexivity|]. left. split; [reflexivity|exact N].
  - left. cbn [try_int]. rewrite (ends_ident _ He), (nonzero_some _ _ Z0). eexists. split; [reflexivity|]. left. repeat split; [exact Z0|discriminate].
  - left. cbn [try_int try_ident custom_ident]. destruct (css_name_free _ N) as (R & S & A). rewrite R, (nonzero_some _ _ Z0).
    eexists. split; [reflexivity|]. left. repeat split; [exact Z0|]. intros s [= <-]. exact N.
  - left. destruct (css_name_free _ N) as (R & S & A). rewrite S, A. cbn [try_int try_ident custom_ident]. rewrite R. cbn [try_int]. rewrite (nonzero_some _ _ Z0).
    eexists. split; [reflexivity|]. left. repeat split; [exact Z0|]. intros s [= <-]. exact N.
  - left. repeat kw E. destruct H as [z Z1|n N|z n Z1 N|z n Z1 N]; cbn [app try_int try_ident custom_ident].
    + rewrite (ends_ident _ He), (nonzero_some z) by lia. eexists. split; [reflexivity|]. left. repeat split; [exact Z1|discriminate].
    + destruct (css_name_free _ N) as (R & _). rewrite R; cbn [try_int]; rewrite (ends_int _ He). eexists. split; [reflexivity|]. left. repeat split; [lia|]. intros ? [= <-]. exact N.
    + destruct (css_name_free _ N) as (R & _). rewrite R; cbn [try_int]; rewrite (nonzero_some z) by lia. eexists. split; [reflexivity|]. left. repeat split; [exact Z1|]. intros ? [= <-]. exact N.
    + destruct (css_name_free _ N) as (R & _). rewrite R; cbn [try_int]; rewrite (nonzero_some z) by lia. eexists. split; [reflexivity|]. left. repeat split; [exact Z1|]. intros ? [= <-]. exact N.
  - assert (HS : has_span (l ++ [Word s])) by (exists s; split; [apply in_or_app; right; left; reflexivity|exact E]).
    destruct H as [z Z1|n N|z n Z1 N|z n Z1 N]; cbn [app try_int try_ident custom_ident word].
    + left. rewrite (span_not_reserved _ E), (nonzero_some z) by lia. eexists. split; [reflexivity|]. right. exists s, z. repeat split; assumption.
    + right. destruct (css_name_free _ N) as (R & S & A). rewrite S, A, R. do 2 eexists. split; [reflexivity|]. split; [discriminate|exact HS].
    + right. destruct (css_name_free _ N) as (R & S & A). rewrite R; cbn [try_int]; rewrite (nonzero_some z) by lia. do 2 eexists. split; [reflexivity|]. split; [discriminate|exact HS].
    + right. destruct (css_name_free _ N) as (R & S & A). rewrite S, A, R; cbn [try_int]; rewrite (nonzero_some z) by lia. do 2 eexists. split; [reflexivity|]. split; [discriminate|exact HS].
Qed.
Lemma opposite_means x y : line_means x y -> line_means (default_end x) (opposite y).
Proof.
  intros [[-> H]|(s & z & -> & E & Z1 & ->)]; [|left; split; [reflexivity|exact I]].
  left. destruct y; (split; [reflexivity|]); try exact I. exact H.
Qed.
Lemma left_over_whole {A} (a : A) w : left_over w -> whole (Some (a, w)) = None.
Proof. destruct w; [contradiction|reflexivity]. Qed.
Lemma has_span_l a b : has_span a -> has_span (a ++ b).
Proof. intros (s & H & E). exists s. split; [apply in_or_app; left; exact H|exact E]. Qed.
Lemma has_span_r a t b : has_span b -> has_span (a ++ t :: b).
Proof. intros (s & H & E). exists s. split; [apply in_or_app; right; right; exact H|exact E]. Qed.
Lemma read_pair l a b : GPair l (a, b) ->
  (exists x y, parse_pair l = Some (x, y, []) /\ line_means x a /\ line_means y b) \/ (whole (parse_pair l) = None /\ has_span l).
Proof.
  intros H. inversion H as [l' a' Ha|l' a' m b' Ha Hb]; subst; unfold parse_pair.
  - pose proof (read_line _ _ [] Ha I) as R. rewrite app_nil_r in R. destruct R as [(x & -> & M)|(x & w & -> & L & S)].
    + left. exists x, (default_end x). repeat split; [exact M|apply opposite_means, M].
    + right. split; [|exact S]. destruct w as [|t w]; [contradiction|]. cbn in L. destruct t; try reflexivity. congruence.
  - destruct (read_line _ _ (Slash :: m) Ha eq_refl) as [(x & -> & M)|(x & w & -> & L & S)].
    + pose proof (read_line _ _ [] Hb I) as R. rewrite app_nil_r in R. destruct R as [(y & -> & N)|(y & w & -> & L & S)].
      * left. exists x, y. repeat split; assumption.
      * right. split; [destruct w; [contradiction|reflexivity]|apply has_span_r, S].
    + right. split; [|apply has_span_l, S]. destruct w as [|t w]; [contradiction|]. cbn in L. destruct t; try reflexivity. congruence.
Qed.
Lemma read_four l a b c d : GFour l (a, b, c, d) ->
  (exists x y z w, parse_area l = Some (Area x y z w, []) /\ line_means x a /\ line_means y b /\ line_means z c /\ line_means w d)
  \/ (whole (parse_area l) = None /\ has_span l).
Proof.
  assert (LO : forall w, left_over w -> exists t r, w = t :: r /\ t <> Slash) by (intros [|t r] H; [contradiction|eauto]).
  intros H. inversion H as [l1 a1 Ha|l1 a1 l2 b1 Ha Hb|l1 a1 l2 b1 l3 c1 Ha Hb Hc|l1 a1 l2 b1 l3 c1 l4 d1 Ha Hb Hc Hd]; subst; unfold parse_area.
  - pose proof (read_line _ _ [] Ha I) as R. rewrite app_nil_r in R. destruct R as [(x & -> & M)|(x & w & -> & L & S)].
    + left. exists x, (default_end x), (default_end x), (default_end x). repeat split; try assumption; apply opposite_means, M.
    + right. split; [|exact S]. destruct (LO _ L) as (t & r & -> & N). destruct t; try reflexivity. congruence.
  - destruct (read_line _ _ (Slash :: l2) Ha eq_refl) as [(x & -> & M)|(x & w & -> & L & S)].
    + pose proof (read_line _ _ [] Hb I) as R. rewrite app_nil_r in R. destruct R as [(y & -> & M2)|(y & w & -> & L & S)].
      * left. exists x, y, (default_end x), (default_end y). repeat split; try assumption; apply opposite_means; assumption.
      * right. split; [|apply has_span_r, S]. destruct (LO _ L) as (t & r & -> & N). destruct t; try reflexivity. congruence.
    + right. split; [|apply has_span_l, S]. destruct (LO _ L) as (t & r & -> & N). destruct t; try reflexivity. congruence.
  - destruct (read_line _ _ (Slash :: l2 ++ Slash :: l3) Ha eq_refl) as [(x & -> & M)|(x & w & -> & L & S)].
    + destruct (read_line _ _ (Slash :: l3) Hb eq_refl) as [(y & -> & M2)|(y & w & -> & L & S)].
      * pose proof (read_line _ _ [] Hc I) as R. rewrite app_nil_r in R. destruct R as [(z & -> & M3)|(z & w & -> & L & S)].
        -- left. exists x, y, z, (default_end y). repeat split; try assumption; apply opposite_means; assumption.
        -- right. split; [|apply has_span_r, has_span_r, S]. destruct (LO _ L) as (t & r & -> & N). destruct t; try reflexivity. congruence.
      * right. split; [|apply has_span_r, has_span_l, S]. destruct (LO _ L) as (t & r & -> & N). destruct t; try reflexivity. congruence.
    + right. split; [|apply has_span_l, S]. destruct (LO _ L) as (t & r & -> & N). destruct t; try reflexivity. congruence.
  - destruct (read_line _ _ (Slash :: l2 ++ Slash :: l3 ++ Slash :: l4) Ha eq_refl) as [(x & -> & M)|(x & w & -> & L & S)].
    + destruct (read_line _ _ (Slash :: l3 ++ Slash :: l4) Hb eq_refl) as [(y & -> & M2)|(y & w & -> & L & S)].
      * destruct (read_line _ _ (Slash :: l4) Hc eq_refl) as [(z & -> & M3)|(z & w & -> & L & S)].
        -- pose proof (read_line _ _ [] Hd I) as R. rewrite app_nil_r in R. destruct R as [(v & -> & M4)|(v & w & -> & L & S)].
           ++ left. exists x, y, z, v. repeat split; assumption.
           ++ right. split; [destruct (LO _ L) as (t & r & -> & N); reflexivity|apply has_span_r, has_span_r, has_span_r, S].
        -- right. split; [|apply has_span_r, has_span_r, has_span_l, S]. destruct (LO _ L) as (t & r & -> & N). destruct t; try reflexivity. congruence.
      * right. split; [|apply has_span_r, has_span_l, S]. destruct (LO _ L) as (t & r & -> & N). destruct t; try reflexivity. congruence.
    + right. split; [|apply has_span_l, S]. destruct (LO _ L) as (t & r & -> & N). destruct t; try reflexivity. congruence.
Qed.
