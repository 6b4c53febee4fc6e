(** * Blocks of grid declarations *)
From Coq Require Import List Bool QArith ZArith Ascii String Lia.
From Verif Require Import AnimModel GridModel GridSpec GridReadProofs GridTemplateProofs GridVarProofs GridPrintProofs GridShortProofs.
Import ListNotations.
Local Open Scope nat_scope.
Local Open Scope string_scope.
Local Open Scope list_scope.
Local Arguments is_kw kw s : simpl never.
Local Arguments reserved s : simpl never.

Definition env : Type := slot -> option value.
Definition over (e2 e1 : env) : env := fun s => match e2 s with Some v => Some v | None => e1 s end.
Definition none : env := fun _ => None.
Lemma cascade_app a b s : cascade (a ++ b) s = over (cascade b) (cascade a) s.
Proof.
  unfold over. induction a as [|e a IH]; cbn [app cascade]; [destruct (cascade b s); reflexivity|]. rewrite IH. destruct (cascade b s); reflexivity.
Qed.

Section Handler.
Variable minify : bool.

(** ** The values of the handler *)
Definition RT (x : sizing) (v : value) : Prop := exists s, v = VTracks s /\ x = sizing_val s /\ fine_sizing minify s.
Definition RA (x : areas) (v : value) : Prop := exists a, v = VAreas a /\ x = areas_val a /\ fine_areas a.
Definition RS (x : list size) (v : value) : Prop := exists s, v = VSizes s /\ x = sizes_val s /\ fine_sizes s.
Definition RF (x : flow) (v : value) : Prop := v = VFlow x.
Definition RL (x : line) (v : value) : Prop := exists y, v = VLine y /\ line_means x y.
Definition rel {A} (R : A -> value -> Prop) (o : option A) (v : option value) : Prop :=
  match o, v with None, None => True | Some a, Some v => R a v | _, _ => False end.
Definition Rel (h : handler) (g : env) : Prop :=
  rel RT (h_rows h) (g SRows) /\ rel RT (h_columns h) (g SColumns) /\ rel RA (h_areas h) (g SAreas)
  /\ rel RS (h_auto_rows h) (g SAutoRows) /\ rel RS (h_auto_columns h) (g SAutoColumns) /\ rel RF (h_flow h) (g SFlow)
  /\ rel RL (h_row_start h) (g SRowStart) /\ rel RL (h_column_start h) (g SColumnStart) /\ rel RL (h_row_end h) (g SRowEnd) /\ rel RL (h_column_end h) (g SColumnEnd).

(** ** Declarations that are read *)
Lemma rows_fine l rows : GRows l rows -> area_rows (map w_cells rows) -> fine_strip minify (tracks_of rows) /\ fine_rows (map w_cells rows).
Proof.
  intros H Ha. assert (B : Forall (fun r => fine_cells (w_cells r) /\ fine_size (w_size r) /\ fine_names (w_after r) /\ fine_names (names_before r)) rows).
  { clear Ha. induction H as [|a r b l H _ IH]; constructor; [|exact IH]. destruct H as [bf before s cells z sz a after Hb Hc Hz Haf]. cbn [w_cells w_size w_after].
    repeat split; [eapply cells_fine, Hc| |eapply names_fine, Haf|].
    - inversion Hz; subst; [apply gs_breadth, gb_auto; reflexivity|eapply size_fine; eassumption].
    - unfold names_before. cbn [w_before]. apply before_fine in Hb. destruct before; [exact Hb|constructor]. }
  split; [|split; [exact Ha|]].
  - split; [|split].
    + unfold tracks_of. destruct rows as [|r rows]; [constructor|]. apply (Forall_inv B).
    + unfold tracks_of. cbn [snd]. clear - B. induction B as [|r rows (_ & Hs & Hn & _) B IH]; [constructor|]. cbn [tracks_after]. constructor; [|exact IH]. cbn [fst snd]. split.
      * unfold fine_track. cbn. apply gt_size, Hs.
      * apply Forall_app. split; [exact Hn|]. destruct B as [|r' rows' (_ & _ & _ & Hb) _]; [constructor|exact Hb].
    + destruct rows as [|r rows]; [destruct Ha as [Ha _]; exfalso; apply Ha; reflexivity|]. discriminate.
  - clear - B. induction B as [|r rows (H & _) B IH]; constructor; assumption.
Qed.
Lemma template_fine l t : GTemplate l t -> fine_three minify t.
Proof.
  intros H. destruct H as [s E|a b r c Ha Hb|l rows Hl Hc|l rows b c Hl Hc Hb Hx].
  - repeat split.
  - repeat split; cbn; eapply sizing_fine; eassumption.
  - destruct (rows_fine _ _ Hl Hc). repeat split; cbn; try assumption; apply H || apply H0.
  - destruct (rows_fine _ _ Hl Hc). split; [exact H|split; [eapply strip_fine, Hb|exact H0]].
Qed.
Lemma grid_fine l g : GGrid l g -> fine_three minify (x_three g) /\ fine_sizes (x_auto_rows g) /\ fine_sizes (x_auto_columns g).
Proof.
  assert (A : fine_sizes [Breadth BAuto]) by (eapply sizes_opt_fine, gzo_none).
  intros H. destruct H as [l t H|a r f d z sizes Ha Hfl Hz|f d z sizes b c Hfl Hz Hb]; cbn [x_three x_auto_rows x_auto_columns].
  - split; [eapply template_fine, H|split; exact A].
  - split; [|split; [exact A|eapply sizes_opt_fine, Hz]]. repeat split; cbn. eapply sizing_fine, Ha.
  - split; [|split; [eapply sizes_opt_fine, Hz|exact A]]. repeat split; cbn. eapply sizing_fine, Hb.
Qed.

Definition Reads (d : decl) (e : env) : Prop := forall h g, Rel h g -> exists h', handle h d = Some (h', []) /\ Rel h' (over e g).
Ltac step := intros h0 g0 HR; destruct h0 as [ro co ar au ac fl rs cs re ce]; destruct HR as (? & ? & ? & ? & ? & ? & ? & ? & ? & ?); eexists; split; [reflexivity|]; unfold Rel, over; cbn in *; repeat split; try assumption.
Lemma ends_nil : ends [].
Proof. exact I. Qed.
Lemma rows_no_slash m rows : GRows m rows -> ~ In Slash m.
Proof.
  induction 1 as [|a r b l H _ IH]; [exact (fun x => x)|]. intros X. apply in_app_or in X. destruct X as [X|X]; [|contradiction].
  destruct H as [bf before s cells z sz a0 after Hb Hc Hz Ha]. apply in_app_or in X. destruct X as [X|X].
  - destruct Hb as [|t n Hb]; [contradiction|]. destruct Hb. destruct X as [X|X]; [discriminate|contradiction].
  - destruct X as [X|X]; [discriminate|]. apply in_app_or in X. destruct X as [X|X].
    + destruct Hz as [|t s0 Hz]; [contradiction|]. destruct X as [->|X]; [|contradiction]. inversion Hz; subst. inversion H; subst. inversion H0.
    + destruct Ha as [|t n Ha]; [contradiction|]. destruct Ha. destruct X as [X|X]; [discriminate|contradiction].
Qed.
Lemma names_empty ns n : GNamesOpt ns n -> (forall x, In (Names x) ns -> x = []) -> n = [].
Proof. intros H0 H1. destruct H0 as [|t n H0]; [reflexivity|]. destruct H0 as [n H0]. pose proof (H1 _ (or_introl eq_refl)) as X. destruct n; [reflexivity|discriminate]. Qed.
Lemma rows_no_names m rows : GRows m rows -> (forall x, In (Names x) m -> x = []) ->
  Forall (fun n => n = []) (map snd (tracks_after rows)) /\ match rows with [] => True | r :: _ => names_before r = [] end.
Proof.
  induction 1 as [|a r b l H _ IH]; intros Hx; [split; [constructor|exact I]|].
  destruct IH as [IH1 IH2]; [intros x X; apply Hx, in_or_app; right; exact X|].
  destruct H as [bf before s cells z sz a0 after Hb Hc Hz Ha].
  assert (A : after = []). { apply (names_empty _ _ Ha). intros x X. apply Hx, in_or_app. left. apply in_or_app. right. right. apply in_or_app. right. exact X. }
  assert (B : names_before (Row before cells sz after) = []).
  { unfold names_before. cbn [w_before]. destruct Hb as [|t n Hb]; [reflexivity|]. apply (names_empty [t] n (go_some _ _ Hb)). intros x X. apply Hx, in_or_app. left. apply in_or_app. left. exact X. }
  split; [|exact B]. cbn [tracks_after map snd w_after]. constructor; [|exact IH1]. subst after. cbn [app]. destruct l; [reflexivity|exact IH2].
Qed.
Lemma named_rows l m rows b : GRows m rows -> l = m \/ l = m ++ Slash :: b ->
  (forall s a x b, l = Str s :: a ++ Names x :: b -> x = [] \/ In Slash a) -> first_named rows.
Proof.
  intros H El Hn. pose proof (rows_no_slash _ _ H) as NS. pose proof (rows_no_names _ _ H) as NN. destruct H as [|a r b0 l0 H Hs]; [exact I|].
  destruct H as [bf before s cells z sz a0 after Hb Hc Hz Ha]. destruct Hb as [|t n Hb]; [|left; discriminate]. right.
  apply NN. intros x Hx. destruct Hx as [Hx|Hx]; [discriminate|]. apply in_split in Hx. destruct Hx as (u & v & E).
  assert (Em : ([] ++ Str s :: z ++ a0) ++ b0 = Str s :: u ++ Names x :: v) by (cbn; rewrite <- E; reflexivity).
  rewrite Em in *. assert (Q : x = [] \/ In Slash u).
  { destruct El as [El|El]; [apply (Hn s u x v El)|]. apply (Hn s u x (v ++ Slash :: b)). rewrite El. cbn. rewrite <- List.app_assoc. reflexivity. }
  destruct Q as [Q|Q]; [exact Q|]. exfalso. apply NS. right. apply in_or_app. left. exact Q.
Qed.
Lemma in_span p l : In p [GridRowStart; GridRowEnd; GridColumnStart; GridColumnEnd; GridRow; GridColumn; GridArea] -> has_span l -> Kept (p, l).
Proof. intros H (s & Hs & E). eapply kp_span; eassumption. Qed.
Lemma read_decl p l vs : GValue p l vs -> lines_named (p, l) ->
  (parse_decl p l = DRaw p l /\ Kept (p, l)) \/ Reads (parse_decl p l) (assign (longhands p) vs).
Proof.
  intros H Hn. destruct H as [l s H|l s H|l a H|l s H|l s H|l f H|l t H|l g H|l a H|l a H|l a H|l a H|l a b H|l a b H|l a b c d H|p l H]; unfold parse_decl.
  - pose proof (read_sizing l s [] H I) as E. rewrite app_nil_r in E. rewrite E. right. cbn [whole longhands assign]. step. exists s. repeat split. eapply sizing_fine, H.
  - pose proof (read_sizing l s [] H I) as E. rewrite app_nil_r in E. rewrite E. right. cbn [whole longhands assign]. step. exists s. repeat split. eapply sizing_fine, H.
  - rewrite (read_areas _ _ H). right. cbn [whole longhands assign]. step. exists a. repeat split. eapply areas_fine, H.
  - pose proof (read_sizes l s [] H I) as E. rewrite app_nil_r in E. rewrite E. right. cbn [whole longhands assign]. step. exists s. split; [reflexivity|split; [reflexivity|]]. eapply sizes_fine, H.
  - pose proof (read_sizes l s [] H I) as E. rewrite app_nil_r in E. rewrite E. right. cbn [whole longhands assign]. step. exists s. split; [reflexivity|split; [reflexivity|]]. eapply sizes_fine, H.
  - destruct (read_flow _ _ H) as [E|[E (s & -> & Es)]]; rewrite E.
    + right. cbn [whole longhands assign]. step.
    + left. split; [reflexivity|]. apply kp_dense, Es.
  - destruct (read_template _ _ H) as [E|[E (s & r & c & -> & Es & _)]]; [intros m rows b0 El Hm; exact (named_rows l m rows b0 Hm El (Hn (or_introl eq_refl)))| |]; rewrite E.
    + right. cbn [whole longhands assign three_values]. destruct (template_fine _ _ H) as (F1 & F2 & F3). destruct t as [r c a]. step; [exists r|exists c|exists a]; repeat split; assumption.
    + left. split; [reflexivity|]. apply kp_none; [left; reflexivity|exact Es].
  - destruct (read_grid _ _ H) as [E|[E (s & r & -> & Es)]]; [intros m rows b0 El Hm; exact (named_rows l m rows b0 Hm El (Hn (or_intror eq_refl)))| |]; rewrite E.
    + right. cbn [whole longhands assign three_values app]. destruct (grid_fine _ _ H) as ((F1 & F2 & F3) & F4 & F5). destruct g as [[r c a] s1 s2 f].
      step; [exists r|exists c|exists a|exists s1|exists s2]; repeat split; try assumption; first [apply F4 | apply F5].
    + left. split; [reflexivity|]. apply kp_none; [right; reflexivity|exact Es].
  - pose proof (read_line l a [] H I) as E. rewrite app_nil_r in E. destruct E as [(x & -> & M)|(x & w & -> & L & S)].
    + right. cbn [whole longhands assign]. step. exists a. split; [reflexivity|exact M].
    + left. rewrite (left_over_whole _ _ L). split; [reflexivity|]. apply in_span; [cbn; tauto|exact S].
  - pose proof (read_line l a [] H I) as E. rewrite app_nil_r in E. destruct E as [(x & -> & M)|(x & w & -> & L & S)].
    + right. cbn [whole longhands assign]. step. exists a. split; [reflexivity|exact M].
    + left. rewrite (left_over_whole _ _ L). split; [reflexivity|]. apply in_span; [cbn; tauto|exact S].
  - pose proof (read_line l a [] H I) as E. rewrite app_nil_r in E. destruct E as [(x & -> & M)|(x & w & -> & L & S)].
    + right. cbn [whole longhands assign]. step. exists a. split; [reflexivity|exact M].
    + left. rewrite (left_over_whole _ _ L). split; [reflexivity|]. apply in_span; [cbn; tauto|exact S].
  - pose proof (read_line l a [] H I) as E. rewrite app_nil_r in E. destruct E as [(x & -> & M)|(x & w & -> & L & S)].
    + right. cbn [whole longhands assign]. step. exists a. split; [reflexivity|exact M].
    + left. rewrite (left_over_whole _ _ L). split; [reflexivity|]. apply in_span; [cbn; tauto|exact S].
  - destruct (read_pair _ _ _ H) as [(x & y & -> & M1 & M2)|[-> S]].
    + right. cbn [whole longhands assign]. step; eexists; (split; [reflexivity|eassumption]).
    + left. split; [reflexivity|]. apply in_span; [cbn; tauto|exact S].
  - destruct (read_pair _ _ _ H) as [(x & y & -> & M1 & M2)|[-> S]].
    + right. cbn [whole longhands assign]. step; eexists; (split; [reflexivity|eassumption]).
    + left. split; [reflexivity|]. apply in_span; [cbn; tauto|exact S].
  - destruct (read_four _ _ _ _ _ H) as [(x & y & z & w & -> & M1 & M2 & M3 & M4)|[-> S]].
    + right. cbn [whole longhands assign]. step; eexists; (split; [reflexivity|eassumption]).
    + left. split; [reflexivity|]. apply in_span; [cbn; tauto|exact S].
  - left. fold (parse_decl p l). rewrite (var_raw p l H). split; [reflexivity|]. apply kp_var, H.
Qed.

(** ** Declarations that are printed *)
Definition Blk (out : list decl) (e : env) : Prop :=
  exists printed, all_some (map (print_decl minify) out) = Some printed /\ Forall (fun d => SetApart (snd d)) printed
    /\ Block (map (fun d => (fst d, tokens (snd d))) printed) e.
Lemma blk_nil : Blk [] none.
Proof. exists []. repeat split; try constructor. exists []. split; [constructor|reflexivity]. Qed.
Lemma blk_ext out e e' : (forall s, e s = e' s) -> Blk out e -> Blk out e'.
Proof. intros H (pr & A & B & es & C & D). exists pr. split; [exact A|split; [exact B|]]. exists es. split; [exact C|]. intros s. rewrite <- H. apply D. Qed.
Lemma all_some_app {A} (a b : list (option A)) x y : all_some a = Some x -> all_some b = Some y -> all_some (a ++ b) = Some (x ++ y).
Proof.
  revert x. induction a as [|[t|] a IH]; intros x; cbn; [intros [= <-] ->; reflexivity| |discriminate].
  destruct (all_some a) as [z|]; [|discriminate]. intros [= <-] H. rewrite (IH z eq_refl H). reflexivity.
Qed.
Lemma blk_app a b e1 e2 : Blk a e1 -> Blk b e2 -> Blk (a ++ b) (over e2 e1).
Proof.
  intros (p1 & A1 & B1 & es1 & C1 & D1) (p2 & A2 & B2 & es2 & C2 & D2). exists (p1 ++ p2). rewrite map_app. split; [apply all_some_app; assumption|].
  split; [apply Forall_app; split; assumption|]. exists (es1 ++ es2). rewrite map_app. split; [apply Forall2_app; assumption|].
  intros s. rewrite cascade_app. unfold over. rewrite D1, D2. reflexivity.
Qed.
Lemma blk_one d p pieces vs : print_decl minify d = Some (p, pieces) -> apart None pieces -> GValue p (tokens pieces) vs -> Blk [d] (assign (longhands p) vs).
Proof.
  intros E A G. exists [(p, pieces)]. cbn [map all_some]. rewrite E. split; [reflexivity|]. split; [constructor; [apply apart_set, A|constructor]|].
  exists [assign (longhands p) vs]. split; [constructor; [|constructor]|]; [exists vs; split; [exact G|reflexivity]|]. reflexivity.
Qed.
Definition at_slot (s0 : slot) (o : option value) : env := fun s => if slot_eq_dec s0 s then o else None.
Lemma assign_one s0 v s : assign [s0] [v] s = at_slot s0 (Some v) s.
Proof. unfold at_slot. cbn. destruct (slot_eq_dec s0 s); reflexivity. Qed.
Lemma blk_opt {A} (R : A -> value -> Prop) (o : option A) (v : option value) (d : A -> decl) s0 :
  rel R o v -> (forall a v, R a v -> Blk [d a] (assign [s0] [v])) -> Blk (opt o d) (at_slot s0 v).
Proof.
  intros H K. destruct o as [a|], v as [v|]; try contradiction.
  - cbn [opt]. eapply blk_ext; [apply assign_one|]. apply K, H.
  - cbn [opt]. eapply blk_ext; [|apply blk_nil]. intros s. unfold none, at_slot. destruct (slot_eq_dec s0 s); reflexivity.
Qed.
Lemma blk_rows a v : RT a v -> Blk [DRows a] (assign [SRows] [v]).
Proof. intros (s & -> & -> & F). eapply (blk_one _ GridTemplateRows _ [VTracks s]); [reflexivity|apply sizing_apart; exact I|apply gv_rows, print_sizing_ok, F]. Qed.
Lemma blk_columns a v : RT a v -> Blk [DColumns a] (assign [SColumns] [v]).
Proof. intros (s & -> & -> & F). eapply (blk_one _ GridTemplateColumns _ [VTracks s]); [reflexivity|apply sizing_apart; exact I|apply gv_columns, print_sizing_ok, F]. Qed.
Lemma blk_areas a v : RA a v -> Blk [DAreas a] (assign [SAreas] [v]).
Proof. intros (s & -> & -> & F). eapply (blk_one _ GridTemplateAreas _ [VAreas s]); [reflexivity|apply areas_apart; exact I|apply gv_areas, print_areas_ok, F]. Qed.
Lemma blk_auto_rows a v : RS a v -> Blk [DAutoRows a] (assign [SAutoRows] [v]).
Proof. intros (s & -> & -> & F). eapply (blk_one _ GridAutoRows _ [VSizes s]); [reflexivity|apply sizes_apart; exact I|apply gv_auto_rows, print_sizes_ok, F]. Qed.
Lemma blk_auto_columns a v : RS a v -> Blk [DAutoColumns a] (assign [SAutoColumns] [v]).
Proof. intros (s & -> & -> & F). eapply (blk_one _ GridAutoColumns _ [VSizes s]); [reflexivity|apply sizes_apart; exact I|apply gv_auto_columns, print_sizes_ok, F]. Qed.
Lemma blk_flow a v : RF a v -> Blk [DFlow a] (assign [SFlow] [v]).
Proof. intros ->. destruct (print_flow_ok minify a). eapply (blk_one _ GridAutoFlow _ [VFlow a]); [reflexivity|assumption|apply gv_flow; assumption]. Qed.
Lemma blk_row_start a v : RL a v -> Blk [DRowStart a] (assign [SRowStart] [v]).
Proof. intros (y & -> & M). eapply (blk_one _ GridRowStart _ [VLine y]); [reflexivity|apply line_apart; exact I|apply gv_row_start, print_line_ok, M]. Qed.
Lemma blk_row_end a v : RL a v -> Blk [DRowEnd a] (assign [SRowEnd] [v]).
Proof. intros (y & -> & M). eapply (blk_one _ GridRowEnd _ [VLine y]); [reflexivity|apply line_apart; exact I|apply gv_row_end, print_line_ok, M]. Qed.
Lemma blk_column_start a v : RL a v -> Blk [DColumnStart a] (assign [SColumnStart] [v]).
Proof. intros (y & -> & M). eapply (blk_one _ GridColumnStart _ [VLine y]); [reflexivity|apply line_apart; exact I|apply gv_column_start, print_line_ok, M]. Qed.
Lemma blk_column_end a v : RL a v -> Blk [DColumnEnd a] (assign [SColumnEnd] [v]).
Proof. intros (y & -> & M). eapply (blk_one _ GridColumnEnd _ [VLine y]); [reflexivity|apply line_apart; exact I|apply gv_column_end, print_line_ok, M]. Qed.
Lemma blk_row a b v w : RL a v -> RL b w -> Blk [DRow a b] (assign [SRowStart; SRowEnd] [v; w]).
Proof. intros (y & -> & M) (z & -> & N). eapply (blk_one _ GridRow _ [VLine y; VLine z]); [reflexivity|apply pair_apart|apply gv_row, print_pair_ok; assumption]. Qed.
Lemma blk_column a b v w : RL a v -> RL b w -> Blk [DColumn a b] (assign [SColumnStart; SColumnEnd] [v; w]).
Proof. intros (y & -> & M) (z & -> & N). eapply (blk_one _ GridColumn _ [VLine y; VLine z]); [reflexivity|apply pair_apart|apply gv_column, print_pair_ok; assumption]. Qed.
Lemma blk_area a b c d v w x y : RL a v -> RL b w -> RL c x -> RL d y -> Blk [DArea (Area a b c d)] (assign [SRowStart; SColumnStart; SRowEnd; SColumnEnd] [v; w; x; y]).
Proof.
  intros (m1 & -> & M1) (m2 & -> & M2) (m3 & -> & M3) (m4 & -> & M4). eapply (blk_one _ GridArea _ [VLine m1; VLine m2; VLine m3; VLine m4]); [reflexivity|apply area_apart|].
  apply gv_area, print_area_ok; assumption.
Qed.
Lemma blk_template t : fine_three minify t -> template_fits minify t -> Blk [DTemplate (template_val t)] (assign [SRows; SColumns; SAreas] (three_values t)).
Proof.
  intros F1 F2. destruct (print_template_ok minify t F1 F2) as (pieces & E & A & G).
  apply (blk_one _ GridTemplate pieces (three_values t)); [cbn [print_decl]; rewrite E; reflexivity|exact A|apply gv_template, G].
Qed.
Definition six_slots := [SRows; SColumns; SAreas; SAutoRows; SAutoColumns; SFlow].
Definition six_values (x : six) : list value := three_values (x_three x) ++ [VSizes (x_auto_rows x); VSizes (x_auto_columns x); VFlow (x_flow x)].
Lemma blk_grid g x pieces : print_grid minify g = Some pieces -> apart None pieces -> GGrid (tokens pieces) x -> Blk [DGrid g] (assign six_slots (six_values x)).
Proof.
  intros E A G. apply (blk_one _ GridShorthand pieces (six_values x)); [cbn [print_decl]; rewrite E; reflexivity|exact A|apply gv_grid, G].
Qed.

(** ** Flushing *)
Definition lines_of (g : env) : env := fun s => match s with SRowStart | SColumnStart | SRowEnd | SColumnEnd => g s | _ => None end.
Lemma lines_ok h g : Rel h g -> exists e1 e2, Blk (fst (flush_lines h)) e1 /\ Blk (snd (flush_lines h)) e2
  /\ (forall s, over e2 e1 s = lines_of g s) /\ (forall s, lines_of g s = None -> e2 s = None).
Proof.
  intros (_ & _ & _ & _ & _ & _ & Hrs & Hcs & Hre & Hce). destruct h as [ro co ar au ac fl rs cs re ce]. cbn [h_row_start h_column_start h_row_end h_column_end] in *. unfold flush_lines. cbn [h_row_start h_column_start h_row_end h_column_end].
  assert (X : forall r1 r2 c1 c2, 
    (match rs, re with Some a, Some b => ([DRow a b], []) | _, _ => ([], opt rs DRowStart ++ opt re DRowEnd) end) = (r1, r2) ->
    (match cs, ce with Some a, Some b => ([DColumn a b], []) | _, _ => ([], opt cs DColumnStart ++ opt ce DColumnEnd) end) = (c1, c2) ->
    exists e1 e2, Blk (r1 ++ c1) e1 /\ Blk (r2 ++ c2) e2 /\ (forall s, over e2 e1 s = lines_of g s) /\ (forall s, lines_of g s = None -> e2 s = None)).
  { intros r1 r2 c1 c2 E1 E2.
    assert (R : exists e1 e2, Blk r1 e1 /\ Blk r2 e2 /\ (forall s, over e2 e1 s = match s with SRowStart | SRowEnd => g s | _ => None end)).
    { assert (SB : Blk (opt rs DRowStart ++ opt re DRowEnd) (over (at_slot SRowEnd (g SRowEnd)) (at_slot SRowStart (g SRowStart)))).
      { apply blk_app; [apply (blk_opt RL _ _ DRowStart); [exact Hrs|apply blk_row_start]|apply (blk_opt RL _ _ DRowEnd); [exact Hre|apply blk_row_end]]. }
      destruct rs as [a|] eqn:Ea, re as [b|] eqn:Eb; injection E1 as <- <-.
      - destruct (g SRowStart) as [v|] eqn:Ev; [|contradiction]. destruct (g SRowEnd) as [w|] eqn:Ew; [|contradiction].
        exists (assign [SRowStart; SRowEnd] [v; w]), none. split; [apply blk_row; assumption|split; [apply blk_nil|]]. intros []; cbn; congruence.
      - exists none, (over (at_slot SRowEnd (g SRowEnd)) (at_slot SRowStart (g SRowStart))). split; [apply blk_nil|]. split.
        + exact SB.
        + intros []; cbn; unfold over, none; cbn; try reflexivity; destruct (g SRowStart), (g SRowEnd); reflexivity.
      - exists none, (over (at_slot SRowEnd (g SRowEnd)) (at_slot SRowStart (g SRowStart))). split; [apply blk_nil|]. split.
        + exact SB.
        + intros []; cbn; unfold over, none; cbn; try reflexivity; destruct (g SRowStart), (g SRowEnd); reflexivity.
      - exists none, (over (at_slot SRowEnd (g SRowEnd)) (at_slot SRowStart (g SRowStart))). split; [apply blk_nil|]. split.
        + exact SB.
        + intros []; cbn; unfold over, none; cbn; try reflexivity; destruct (g SRowStart), (g SRowEnd); reflexivity. }
    assert (C : exists e1 e2, Blk c1 e1 /\ Blk c2 e2 /\ (forall s, over e2 e1 s = match s with SColumnStart | SColumnEnd => g s | _ => None end)).
    { assert (SB : Blk (opt cs DColumnStart ++ opt ce DColumnEnd) (over (at_slot SColumnEnd (g SColumnEnd)) (at_slot SColumnStart (g SColumnStart)))).
      { apply blk_app; [apply (blk_opt RL _ _ DColumnStart); [exact Hcs|apply blk_column_start]|apply (blk_opt RL _ _ DColumnEnd); [exact Hce|apply blk_column_end]]. }
      destruct cs as [a|] eqn:Ea, ce as [b|] eqn:Eb; injection E2 as <- <-.
      - destruct (g SColumnStart) as [v|] eqn:Ev; [|contradiction]. destruct (g SColumnEnd) as [w|] eqn:Ew; [|contradiction].
        exists (assign [SColumnStart; SColumnEnd] [v; w]), none. split; [apply blk_column; assumption|split; [apply blk_nil|]]. intros []; cbn; congruence.
      - exists none, (over (at_slot SColumnEnd (g SColumnEnd)) (at_slot SColumnStart (g SColumnStart))). split; [apply blk_nil|]. split.
        + exact SB.
        + intros []; cbn; unfold over, none; cbn; try reflexivity; destruct (g SColumnStart), (g SColumnEnd); reflexivity.
      - exists none, (over (at_slot SColumnEnd (g SColumnEnd)) (at_slot SColumnStart (g SColumnStart))). split; [apply blk_nil|]. split.
        + exact SB.
        + intros []; cbn; unfold over, none; cbn; try reflexivity; destruct (g SColumnStart), (g SColumnEnd); reflexivity.
      - exists none, (over (at_slot SColumnEnd (g SColumnEnd)) (at_slot SColumnStart (g SColumnStart))). split; [apply blk_nil|]. split.
        + exact SB.
        + intros []; cbn; unfold over, none; cbn; try reflexivity; destruct (g SColumnStart), (g SColumnEnd); reflexivity. }
    destruct R as (er1 & er2 & B1 & B2 & B3). destruct C as (ec1 & ec2 & D1 & D2 & D3).
    assert (Z : forall s, over (over ec2 er2) (over ec1 er1) s = lines_of g s).
    { intros s. specialize (B3 s). specialize (D3 s). unfold over in *. destruct (ec2 s), (er2 s), (ec1 s), (er1 s), s; cbn [lines_of]; congruence. }
    exists (over ec1 er1), (over ec2 er2). split; [apply blk_app; assumption|]. split; [apply blk_app; assumption|]. split; [exact Z|].
    intros s Hs. specialize (Z s). rewrite Hs in Z. unfold over in *. destruct (ec2 s); [congruence|]. destruct (er2 s); [congruence|reflexivity]. }
  destruct rs as [x1|] eqn:E1, cs as [x2|] eqn:E2, re as [x3|] eqn:E3, ce as [x4|] eqn:E4; try (apply (X _ _ _ _ eq_refl eq_refl)).
  destruct (g SRowStart) as [v1|] eqn:G1; [|contradiction]. destruct (g SColumnStart) as [v2|] eqn:G2; [|contradiction].
  destruct (g SRowEnd) as [v3|] eqn:G3; [|contradiction]. destruct (g SColumnEnd) as [v4|] eqn:G4; [|contradiction].
  exists (assign [SRowStart; SColumnStart; SRowEnd; SColumnEnd] [v1; v2; v3; v4]), none. split; [apply blk_area; assumption|]. split; [apply blk_nil|].
  split; [intros []; cbn; congruence|reflexivity].
Qed.

(** The areas that are printed *)
Definition areas_kept (exact : bool) (g f : env) : Prop :=
  f SAreas = g SAreas \/
  (exact = false /\ exists rows a b, g SRows = Some (VTracks (Some rows)) /\ g SAreas = Some (VAreas (Some a)) /\ f SAreas = Some (VAreas (Some b)) /\ same_areas rows a b).
Lemma padded_same s rows : fine_rows rows -> explicit s -> List.length rows <= List.length (snd s) -> same_areas s rows (pad_rows (List.length (snd s)) rows).
Proof.
  intros [(N & _) _] E L. split; [exact E|]. split; [symmetry; apply pad_columns, N|]. split.
  - rewrite pad_length by exact L. lia.
  - intros r c. symmetry. apply cell_at_pad.
Qed.
Lemma template_valid_inv r c a : template_valid (sizing_val r) (sizing_val c) (areas_val (Some a)) = true ->
  exists s, r = Some s /\ explicit s /\ ok_columns c.
Proof.
  unfold template_valid. cbn [areas_val no_areas orb]. rewrite no_tracks_val. destruct r as [s|]; [|discriminate]. cbn [negb andb]. intros H. apply andb_true_iff in H.
  exists s. split; [reflexivity|]. split; [apply explicit_val, H|apply explicit_sizing_val, H].
Qed.
(** The padded template of a valid one *)
Lemma padded exact g r c a : fine_sizing minify r -> fine_sizing minify c -> fine_areas a ->
  g SRows = Some (VTracks r) -> g SColumns = Some (VTracks c) -> g SAreas = Some (VAreas a) -> fits minify exact g ->
  template_valid (sizing_val r) (sizing_val c) (areas_val a) = true ->
  exists a2, pad (sizing_val r) (areas_val a) = Some (areas_val a2) /\ fine_three minify (Three r c a2) /\ template_fits minify (Three r c a2)
    /\ (forall f, f SAreas = Some (VAreas a2) -> areas_kept exact g f) /\ (a2 = None <-> a = None).
Proof.
  intros Fr Fc Fa Gr Gc Ga Hf V. destruct a as [a|].
  - destruct (template_valid_inv _ _ _ V) as (s & -> & Es & Ec). destruct (Hf _ _ _ Gr Gc Ga Es Ec) as (L & Lx & Ln).
    exists (Some (pad_rows (List.length (snd s)) a)). split; [apply pad_ok; assumption|]. split; [split; [exact Fr|split; [exact Fc|apply pad_fine, Fa]]|].
    split; [split; [exact Es|split; [exact Ec|split; [apply pad_length, L|exact Ln]]]|]. split; [|split; discriminate].
    intros f Ef. destruct exact.
    + left. rewrite Ef, Ga. unfold pad_rows. rewrite (Lx eq_refl), Nat.sub_diag. cbn. rewrite app_nil_r. reflexivity.
    + right. split; [reflexivity|]. exists s, a, (pad_rows (List.length (snd s)) a). repeat split; try assumption; apply padded_same; assumption.
  - exists None. split; [destruct r; reflexivity|]. split; [repeat split; assumption|]. split; [exact I|]. split; [|tauto]. intros f Ef. left. congruence.
Qed.

Lemma template_ok exact h g : Rel h g -> fits minify exact g ->
  exists out tu au f, flush_template h = Some (out, tu, au) /\ Blk out f
   /\ f SRows = (if tu then g SRows else None) /\ f SColumns = (if tu then g SColumns else None)
   /\ (if tu then areas_kept exact g f else f SAreas = None)
   /\ f SAutoRows = (if au then g SAutoRows else None) /\ f SAutoColumns = (if au then g SAutoColumns else None) /\ f SFlow = (if au then g SFlow else None)
   /\ f SRowStart = None /\ f SColumnStart = None /\ f SRowEnd = None /\ f SColumnEnd = None.
Proof.
  intros (Hr & Hc & Ha & Har & Hac & Hfl & _) Hf. unfold flush_template. destruct h as [ro co ar au ac fl rs cs re ce]. cbn [h_rows h_columns h_areas h_auto_rows h_auto_columns h_flow] in *.
  assert (N : exists out tu au f, Some (@nil decl, false, false) = Some (out, tu, au) /\ Blk out f
   /\ f SRows = (if tu then g SRows else None) /\ f SColumns = (if tu then g SColumns else None)
   /\ (if tu then areas_kept exact g f else f SAreas = None)
   /\ f SAutoRows = (if au then g SAutoRows else None) /\ f SAutoColumns = (if au then g SAutoColumns else None) /\ f SFlow = (if au then g SFlow else None)
   /\ f SRowStart = None /\ f SColumnStart = None /\ f SRowEnd = None /\ f SColumnEnd = None).
  { exists [], false, false, none. split; [reflexivity|]. split; [apply blk_nil|]. repeat split. }
  destruct ro as [xr|]; [|exact N]. destruct co as [xc|]; [|exact N]. destruct ar as [xa|]; [|exact N].
  destruct (g SRows) as [vr|] eqn:Gr; [|contradiction]. destruct (g SColumns) as [vc|] eqn:Gc; [|contradiction]. destruct (g SAreas) as [va|] eqn:Ga; [|contradiction].
  destruct Hr as (r & -> & -> & Fr). destruct Hc as (c & -> & -> & Fc). destruct Ha as (a & -> & -> & Fa).
  assert (T : exists out tu au f, (if template_valid (sizing_val r) (sizing_val c) (areas_val a)
          then option_map (fun a' => ([DTemplate (Template (sizing_val r) (sizing_val c) a')], true, false)) (pad (sizing_val r) (areas_val a))
          else Some ([], false, false)) = Some (out, tu, au) /\ Blk out f
   /\ f SRows = (if tu then Some (VTracks r) else None) /\ f SColumns = (if tu then Some (VTracks c) else None)
   /\ (if tu then areas_kept exact g f else f SAreas = None)
   /\ f SAutoRows = (if au then g SAutoRows else None) /\ f SAutoColumns = (if au then g SAutoColumns else None) /\ f SFlow = (if au then g SFlow else None)
   /\ f SRowStart = None /\ f SColumnStart = None /\ f SRowEnd = None /\ f SColumnEnd = None).
  { destruct (template_valid _ _ _) eqn:V; [|exact N].
    destruct (padded exact g r c a Fr Fc Fa Gr Gc Ga Hf V) as (a2 & P & F3 & Tf & K & _). rewrite P. cbn [option_map].
    do 4 eexists. split; [reflexivity|]. split; [apply (blk_template (Three r c a2) F3 Tf)|]. cbn [three_values y_rows y_columns y_areas].
    repeat split. apply K. reflexivity. }
  destruct au as [xar|]; [|exact T]. destruct ac as [xac|]; [|exact T]. destruct fl as [f0|]; [|exact T].
  destruct (g SAutoRows) as [var|] eqn:Gar; [|contradiction]. destruct (g SAutoColumns) as [vac|] eqn:Gac; [|contradiction]. destruct (g SFlow) as [vf|] eqn:Gf; [|contradiction].
  destruct Har as (s1 & -> & -> & F1). destruct Hac as (s2 & -> & -> & F2). cbn [rel] in Hfl. unfold RF in Hfl. subst vf.
  destruct (grid_valid _ _ _ _ _ _) eqn:V; [|exact T]. clear N T. cbv beta iota zeta.
  destruct a as [a|].
  - cbn [areas_val no_areas negb andb] in *. rewrite !no_tracks_val.
    assert (Ar : Blk [DAreas (areas_val (Some a))] (assign [SAreas] [VAreas (Some a)])) by (apply blk_areas; exists (Some a); repeat split; apply Fa).
    destruct r as [s|].
    + destruct (f_column f0) eqn:Ef.
      * (* the columns are automatic *)
        unfold grid_valid in V. cbn [no_areas negb andb sizing_val no_tracks] in V. rewrite Ef in V.
        assert (If : initial_flow f0 = false) by (unfold initial_flow; rewrite Ef; reflexivity). rewrite If, !andb_false_r in V. cbn [orb negb andb] in V.
        apply andb_true_iff in V. destruct V as [V1 V2]. rewrite no_tracks_val in V1. destruct c; [discriminate|]. cbn [negb andb orb].
        destruct (print_grid_rows minify (Some s) f0 s2 Fr F2 Ef) as [A G].
        assert (B : Blk [DGrid (Grid (sizing_val (Some s)) (sizing_val None) (areas_val (Some a)) (sizes_val s1) (sizes_val s2) f0)]
                      (assign six_slots (six_values (Six (Three (Some s) None None) [Breadth BAuto] s2 f0)))).
        { eapply blk_grid; [|exact A|exact G]. unfold print_grid. cbn [no_areas areas_val negb andb sizing_val no_tracks]. rewrite Ef. reflexivity. }
        do 4 eexists. split; [reflexivity|]. split; [exact (blk_app _ _ _ _ B Ar)|]. rewrite (no_sizes_val _ V2) by apply F1. cbn. repeat split. left. cbn. congruence.
      * (* a template *)
        unfold grid_valid in V. cbn [no_areas negb andb sizing_val no_tracks] in V. rewrite Ef in V. cbn [negb andb orb] in V. rewrite !orb_false_r in V.
        apply andb_true_iff in V. destruct V as [V Vi]. pose proof Vi as Vi'. apply andb_true_iff in Vi. destruct Vi as [Vi If]. apply andb_true_iff in Vi. destruct Vi as [V1 V2].
        rewrite andb_false_r. cbn [orb negb andb].
        destruct (padded exact g (Some s) c (Some a) Fr Fc Fa Gr Gc Ga Hf V) as (a2 & P & F3 & Tf & K & Kn). cbn [sizing_val areas_val] in P. cbn [sizing_val]. rewrite P. cbn [option_map].
        destruct a2 as [a2|]; [|destruct Kn as [Kn _]; discriminate (Kn eq_refl)].
        destruct (print_template_ok minify _ F3 Tf) as (pieces & E & A & G).
        assert (B : Blk [DGrid (Grid (sizing_val (Some s)) (sizing_val c) (areas_val (Some a2)) (sizes_val s1) (sizes_val s2) f0)]
                      (assign six_slots (six_values (Six (Three (Some s) c (Some a2)) [Breadth BAuto] [Breadth BAuto] (Flow false false))))).
        { eapply blk_grid; [|exact A|apply gg_template, G]. unfold print_grid. cbn [no_areas areas_val negb andb sizing_val no_tracks]. rewrite Ef, andb_false_r. cbn [orb]. rewrite Vi'. exact E. }
        do 4 eexists. split; [reflexivity|]. split; [exact B|]. rewrite (no_sizes_val _ V1) by apply F1. rewrite (no_sizes_val _ V2) by apply F2. rewrite (initial_flow_eq _ If).
        cbn. repeat split. apply K. reflexivity.
    + (* the rows are automatic *)
      unfold grid_valid in V. cbn [no_areas negb andb sizing_val no_tracks] in V. rewrite V. cbn [andb orb]. apply negb_true_iff in V.
      destruct (print_grid_columns minify c f0 s1 Fc F1 V) as [A G].
      assert (B : Blk [DGrid (Grid (sizing_val None) (sizing_val c) (areas_val (Some a)) (sizes_val s1) (sizes_val s2) f0)]
                    (assign six_slots (six_values (Six (Three None c None) s1 [Breadth BAuto] f0)))).
      { eapply blk_grid; [|exact A|exact G]. reflexivity. }
      do 4 eexists. split; [reflexivity|]. split; [exact (blk_app _ _ _ _ B Ar)|].
      assert (S2 : s2 = [Breadth BAuto]). { apply (Hf _ _ _ Gr Gc Ga (f_dense f0)); [|exact Gac]. rewrite Gf. destruct f0; cbn in *; subst; reflexivity. }
      rewrite S2. cbn. repeat split. left. cbn. congruence.
  - cbn [areas_val no_areas negb andb] in *. assert (P : pad (sizing_val r) NoAreas = Some NoAreas) by (destruct r; reflexivity). rewrite P. cbn [option_map].
    destruct (print_grid_plain minify r c s1 s2 f0 Fr Fc F1 F2 V) as (pieces & E & A & G).
    do 4 eexists. split; [reflexivity|]. split; [eapply blk_grid; eassumption|]. cbn. repeat split. left. cbn. congruence.
Qed.

Lemma flush_ok exact h g : Rel h g -> fits minify exact g ->
  exists out f, flush h = Some out /\ Blk out f /\ (forall s, s <> SAreas -> f s = g s) /\ areas_kept exact g f.
Proof.
  intros H Hf. destruct (template_ok exact h g H Hf) as (out & tu & au & f & E & B & K1 & K2 & K3 & K4 & K5 & K6 & K7 & K8 & K9 & K10).
  destruct (lines_ok h g H) as (e1 & e2 & B1 & B2 & O & O2). destruct H as (Hr & Hc & Ha & Har & Hac & Hfl & _).
  unfold flush. rewrite E. destruct (flush_lines h) as [lines singles]. cbn [fst snd] in *.
  assert (KP : forall A (R : A -> value -> Prop) (o : option A) v (b : bool), rel R o v -> rel R (if b then None else o) (if b then None else v)) by (intros; destruct b; [exact I|assumption]).
  assert (S1 := blk_opt RT _ _ DRows SRows (KP _ _ _ _ tu Hr) blk_rows).
  assert (S2 := blk_opt RT _ _ DColumns SColumns (KP _ _ _ _ tu Hc) blk_columns).
  assert (S3 := blk_opt RA _ _ DAreas SAreas (KP _ _ _ _ tu Ha) blk_areas).
  assert (S4 := blk_opt RS _ _ DAutoRows SAutoRows (KP _ _ _ _ au Har) blk_auto_rows).
  assert (S5 := blk_opt RS _ _ DAutoColumns SAutoColumns (KP _ _ _ _ au Hac) blk_auto_columns).
  assert (S6 := blk_opt RF _ _ DFlow SFlow (KP _ _ _ _ au Hfl) blk_flow).
  pose proof (blk_app _ _ _ _ B (blk_app _ _ _ _ B1 (blk_app _ _ _ _ S1 (blk_app _ _ _ _ S2 (blk_app _ _ _ _ S3 (blk_app _ _ _ _ S4 (blk_app _ _ _ _ S5 (blk_app _ _ _ _ S6 B2)))))))) as BB.
  do 2 eexists. split; [reflexivity|]. split; [exact BB|].
  assert (E2 : forall s, e2 s = match e2 s with Some v => Some v | None => None end) by (intros s; destruct (e2 s); reflexivity).
  split.
  - clear BB S1 S2 S3 S4 S5 S6 E2. intros s Hs. pose proof (O s) as Os. pose proof (O2 s) as O2s. destruct s; try congruence;
    try (cbn [lines_of] in Os, O2s; specialize (O2s eq_refl); unfold over in Os; rewrite O2s in Os; unfold over, at_slot; cbn; rewrite O2s, Os; destruct tu, au; cbn;
              rewrite ?K1, ?K2, ?K4, ?K5, ?K6; repeat match goal with |- context [g ?x] => destruct (g x) end; reflexivity);
    clear O2s; cbn [lines_of] in Os; rewrite <- Os; unfold over, at_slot; cbn; rewrite ?K7, ?K8, ?K9, ?K10;
         repeat match goal with |- context [e2 ?x] => destruct (e2 x) | |- context [e1 ?x] => destruct (e1 x) end; reflexivity.
  - pose proof (O SAreas) as Os. pose proof (O2 SAreas eq_refl) as O2s.
    assert (X : over (over (over (over (over (over (over (over e2 (at_slot SFlow (if au then None else g SFlow))) (at_slot SAutoColumns (if au then None else g SAutoColumns)))
       (at_slot SAutoRows (if au then None else g SAutoRows))) (at_slot SAreas (if tu then None else g SAreas))) (at_slot SColumns (if tu then None else g SColumns))) (at_slot SRows (if tu then None else g SRows))) e1) f SAreas
       = if tu then f SAreas else g SAreas).
    { unfold over, at_slot in *. cbn in *. rewrite O2s in *. rewrite Os. destruct tu; cbn; [reflexivity|]. rewrite K3. destruct (g SAreas); reflexivity. }
    destruct tu.
    + destruct K3 as [K3|(-> & rows & a & b & A1 & A2 & A3 & A4)]; [left; rewrite X; exact K3|]. right. split; [reflexivity|]. exists rows, a, b. rewrite X. repeat split; try assumption; apply A4.
    + left. exact X.
Qed.

(** ** The whole block *)
Lemma rel_none : Rel no_values none.
Proof. repeat split. Qed.
Lemma fits_over exact g o : fits minify exact (over g o) -> fits minify exact g.
Proof.
  intros H rows columns areas G1 G2 G3.
  assert (L : forall s v, g s = Some v -> over g o s = Some v) by (intros s v E; unfold over; rewrite E; reflexivity).
  pose proof (H rows columns areas (L _ _ G1) (L _ _ G2) (L _ _ G3)) as K. destruct rows; [exact K|]. intros d l E1 E2. apply (K d l); apply L; assumption.
Qed.
Lemma rel_ext h g g' : (forall s, g s = g' s) -> Rel h g -> Rel h g'.
Proof. intros E H. unfold Rel in *. rewrite <- !E. exact H. Qed.
Lemma fits_ext exact g g' : (forall s, g s = g' s) -> fits minify exact g -> fits minify exact g'.
Proof. intros E H. unfold fits in *. intros rows c a. rewrite <- !E. apply H. Qed.
Lemma same_ext e e' f f' : (forall s, e s = e' s) -> (forall s, f s = f' s) -> same_grid e f -> same_grid e' f'.
Proof.
  intros E F [H1 H2]. split; [intros s Hs; rewrite <- E, <- F; apply H1, Hs|]. destruct H2 as [H2|(r & a & b & A1 & A2 & A3 & A4)]; [left; rewrite <- E, <- F; exact H2|].
  right. exists r, a, b. rewrite <- !E, <- F. repeat split; try assumption; apply A4.
Qed.
Lemma run_ok : forall block es, Forall2 Declares block es -> Forall lines_named block -> forall h g o, Rel h g ->
  (forall a b es1 es2, block = a ++ b -> es = es1 ++ es2 -> List.length a = List.length es1 ->
     (b = [] -> fits minify false (over (cascade es1) (over g o))) /\ (forall d r, b = d :: r -> Kept d -> fits minify true (over (cascade es1) (over g o)))) ->
  exists out f, run h (map (fun '(p, v) => parse_decl p v) block) = Some out /\ Blk out f /\ same_grid (over (cascade es) (over g o)) (over f o).
Proof.
  induction 1 as [|[p l] e block es Hd Hb IH]; intros Hn h g o Hh Hf.
  - destruct (Hf [] [] [] [] eq_refl eq_refl eq_refl) as [Hf0 _]. specialize (Hf0 eq_refl).
    destruct (flush_ok false h g Hh (fits_over _ _ o (fits_ext _ _ (over g o) (fun s => eq_refl) Hf0))) as (out & f & E & B & K & A).
    exists out, f. split; [exact E|]. split; [exact B|]. split.
    + intros s Hs. unfold over. cbn [cascade]. rewrite (K s Hs). reflexivity.
    + destruct A as [A|(_ & rows & a & b & A1 & A2 & A3 & A4)].
      * left. unfold over. cbn [cascade]. rewrite A. reflexivity.
      * right. exists rows, a, b. unfold over. cbn [cascade]. rewrite A1, A2, A3. repeat split; apply A4.
  - pose proof (Forall_inv Hn) as Hn1. pose proof (Forall_inv_tail Hn) as Hn2. destruct Hd as (vs & G & Ee). cbn [fst snd] in *. cbn [map run].
    assert (CE : forall es1 g' o' s, (forall s, g' s = over e g s) -> (forall s, o' s = o s) -> over (cascade (e :: es1)) (over g o) s = over (cascade es1) (over g' o') s).
    { intros es1 g' o' s E1 E2. unfold over. cbn [cascade]. rewrite E1, E2. unfold over. destruct (cascade es1 s); [reflexivity|]. destruct (e s); [reflexivity|]. reflexivity. }
    destruct (read_decl p l vs G Hn1) as [[Er Ek]|Hr].
    + rewrite Er.
      destruct (Hf [] ((p, l) :: block) [] (e :: es) eq_refl eq_refl eq_refl) as [_ Hf1]. specialize (Hf1 _ _ eq_refl Ek).
      destruct (flush_ok true h g Hh (fits_over _ _ o (fits_ext _ _ (over g o) (fun s => eq_refl) Hf1))) as (out & f & E & B & K & A).
      assert (FG : forall s, f s = g s).
      { intros s. destruct (slot_eq_dec s SAreas) as [->|N]; [|apply K, N]. destruct A as [A|[A _]]; [exact A|discriminate]. }
      destruct h as [ro co ar au ac fl rs cs re ce]. unfold handle. rewrite E. cbn [option_map].
      assert (BR : Blk [DRaw p l] e).
      { eapply blk_ext; [|apply (blk_one _ p (spaced_out (map T l)) vs); [reflexivity|apply (spaced_apart l None I)|rewrite spaced_tokens; exact G]]. intros s. symmetry. apply Ee. }
      destruct (IH Hn2 no_values none (over e (over g o)) rel_none) as (out2 & f2 & E2 & B2 & S2).
      { intros a b es1 es2 Eb Es El. destruct (Hf ((p, l) :: a) b (e :: es1) es2) as [Q1 Q2]; [cbn; congruence|cbn; congruence|cbn; congruence|].
        assert (X : forall s, over (cascade (e :: es1)) (over g o) s = over (cascade es1) (over none (over e (over g o))) s).
        { intros s. unfold over, none. cbn [cascade]. destruct (cascade es1 s); [reflexivity|]. destruct (e s); reflexivity. }
        split; [intros Z; eapply fits_ext; [exact X|apply Q1, Z]|intros d r Z Zk; eapply fits_ext; [exact X|eapply Q2; eassumption]]. }
      rewrite E2. cbn [option_map]. do 2 eexists. split; [reflexivity|]. split; [apply blk_app; [apply blk_app; [exact B|exact BR]|exact B2]|].
      eapply same_ext; [| |exact S2].
      * intros s. unfold over, none. cbn [cascade]. destruct (cascade es s); [reflexivity|]. destruct (e s); reflexivity.
      * intros s. unfold over. rewrite FG. destruct (f2 s); [reflexivity|]. destruct (e s); reflexivity.
    + destruct (Hr h g Hh) as (h' & E & Hh'). rewrite E. assert (Hh2 : Rel h' (over e g)). { eapply rel_ext; [|exact Hh']. intros s. unfold over. rewrite Ee. reflexivity. }
      destruct (IH Hn2 h' (over e g) o Hh2) as (out2 & f2 & E2 & B2 & S2).
      { intros a b es1 es2 Eb Es El. destruct (Hf ((p, l) :: a) b (e :: es1) es2) as [Q1 Q2]; [cbn; congruence|cbn; congruence|cbn; congruence|].
        assert (X : forall s, over (cascade (e :: es1)) (over g o) s = over (cascade es1) (over (over e g) o) s) by (intros s; apply CE; reflexivity).
        split; [intros Z; eapply fits_ext; [exact X|apply Q1, Z]|intros d r Z Zk; eapply fits_ext; [exact X|eapply Q2; eassumption]]. }
      rewrite E2. cbn [option_map app]. exists out2, f2. split; [reflexivity|]. split; [exact B2|]. eapply same_ext; [| |exact S2]; [|reflexivity].
      intros s. symmetry. apply CE; reflexivity.
Qed.
Lemma over_none e s : over e none s = e s.
Proof. unfold over, none. destruct (e s); reflexivity. Qed.
Lemma forall2_length {A B} (R : A -> B -> Prop) l m : Forall2 R l m -> List.length l = List.length m.
Proof. induction 1; cbn; congruence. Qed.
Theorem block_ok block es : Forall2 Declares block es -> Forall lines_named block -> fits minify false (cascade es) ->
  (forall k d, nth_error block k = Some d -> Kept d -> fits minify true (cascade (firstn k es))) ->
  exists out, process minify block = Some out /\ Forall (fun d => SetApart (snd d)) out
    /\ exists f, Block (map (fun d => (fst d, tokens (snd d))) out) f /\ same_grid (cascade es) f.
Proof.
  intros He Hn Hf Hk. destruct (run_ok block es He Hn no_values none none rel_none) as (out & f & E & (pr & B1 & B2 & B3) & S).
  { intros a b es1 es2 -> -> El.
    assert (X : forall s, cascade es1 s = over (cascade es1) (over none none) s) by (intros s; unfold over, none; destruct (cascade es1 s); reflexivity).
    split.
    - intros ->. eapply fits_ext; [exact X|]. apply forall2_length in He. rewrite !app_length in He. cbn in He. destruct es2; [|cbn in He; lia]. rewrite app_nil_r in Hf. exact Hf.
    - intros d r -> Zk. eapply fits_ext; [exact X|]. specialize (Hk (List.length a) d). rewrite nth_error_app2, Nat.sub_diag in Hk by lia. specialize (Hk eq_refl Zk).
      rewrite El, firstn_app, Nat.sub_diag, firstn_all in Hk. cbn in Hk. rewrite app_nil_r in Hk. exact Hk. }
  unfold process. rewrite E, B1. exists pr. split; [reflexivity|]. split; [exact B2|]. exists f. split; [exact B3|].
  eapply same_ext; [| |exact S]; [|intros s; apply over_none]. intros s. unfold over, none. destruct (cascade es s); reflexivity.
Qed.
End Handler.
