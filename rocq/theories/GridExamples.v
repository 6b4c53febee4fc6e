(** * Blocks of grid declarations *)
From Coq Require Import List Bool QArith ZArith Ascii String Lia.
From Verif Require Import AnimModel GridModel GridSpec GridReadProofs GridTemplateProofs GridVarProofs GridPrintProofs GridOneProofs.
Import ListNotations.
Local Open Scope nat_scope.
Local Open Scope string_scope.

(** What is printed, read again *)
Definition printed (out : list (prop * list piece)) : list (prop * list tok) := map (fun d => (fst d, tokens (snd d))) out.
(** A block that CSS reads, but the result is read as another grid, or not at all *)
Definition changed (minify : bool) (block : list (prop * list tok)) : Prop :=
  exists e out, Block block e /\ process minify block = Some out /\ forall f, Block (printed out) f -> ~ same_grid e f.
(** What a declaration with these values gives *)
Definition gives (p : prop) (vs : list value) : slot -> option value := assign (longhands p) vs.
Lemma declares p l vs : GValue p l vs -> Declares (p, l) (gives p vs).
Proof. intros H. exists vs. split; [exact H|reflexivity]. Qed.
Definition fr (n : Z) : tok := Fr (inject_Z n).
Definition flex (n : Z) : size := Breadth (BFlex (inject_Z n)).
Definition auto : size := Breadth BAuto.
Definition len (n : nat) : size := Breadth (BLength (Len n)).

Ltac chars := cbn; unfold is_blank, is_name, is_dot; cbn; repeat split; auto; try tauto; try lia.
Lemma cells_a : GCells "a" [Some "a"].
Proof. apply (gcl_name "" "a" "" []); [exact I|discriminate|chars|exact (fun x => x)|constructor; exact I]. Qed.
Lemma cells_b : GCells "b" [Some "b"].
Proof. apply (gcl_name "" "b" "" []); [exact I|discriminate|chars|exact (fun x => x)|constructor; exact I]. Qed.
Lemma not_name_space s : ~ starts is_name (String " " s).
Proof. cbn. unfold is_name. cbn. intros [H|[H|[H|[H|[H|H]]]]]; try lia; discriminate. Qed.
Lemma cells_ab : GCells "a b" [Some "a"; Some "b"].
Proof.
  apply (gcl_name "" "a" " b" [Some "b"]); [exact I|discriminate|chars|apply not_name_space|].
  apply (gcl_name " " "b" "" []); [chars|discriminate|chars|exact (fun x => x)|constructor; exact I].
Qed.
Lemma cells_dots : GCells ". ." [None; None].
Proof.
  apply (gcl_null "" "." " ." [None]); [exact I|discriminate|chars|cbn; unfold is_dot; discriminate|].
  apply (gcl_null " " "." "" []); [chars|discriminate|chars|exact (fun x => x)|constructor; exact I].
Qed.
Ltac places := let r := fresh in let c := fresh in intros r c; unfold cell_at; destruct r as [|[|[|r]]], c as [|[|[|c]]]; cbn; split; intros; try discriminate; try lia; try congruence; try reflexivity.
Lemma area_rows_ab : area_rows [[Some "a"; Some "b"]].
Proof.
  split; [discriminate|]. split; [repeat constructor; discriminate|]. intros n. destruct (string_dec n "a") as [->|A]; [exists 0, 1, 0, 1; places|].
  destruct (string_dec n "b") as [->|B]; [exists 0, 1, 1, 2; places|]. exists 0, 0, 0, 0. places.
Qed.
Lemma area_rows_a : area_rows [[Some "a"]].
Proof.
  split; [discriminate|]. split; [repeat constructor; discriminate|]. intros n. destruct (string_dec n "a") as [->|A]; [exists 0, 1, 0, 1; places|]. exists 0, 0, 0, 0. places.
Qed.
Lemma area_rows_a_b : area_rows [[Some "a"]; [Some "b"]].
Proof.
  split; [discriminate|]. split; [repeat constructor; discriminate|]. intros n. destruct (string_dec n "a") as [->|A]; [exists 0, 1, 0, 1; places|].
  destruct (string_dec n "b") as [->|B]; [exists 1, 2, 0, 1; places|]. exists 0, 0, 0, 0. places.
Qed.

(** ** A grid that is kept
    [grid-template-areas: "a b"; grid-template-rows: [x] 1fr [y] auto; grid-template-columns: auto 1px; grid-row: 1 / A; grid-row-end: b] *)
Definition block1 : list (prop * list tok) :=
  [(GridTemplateAreas, [Str "a b"]); (GridTemplateRows, [Names [Word "x"]; fr 1; Names [Word "y"]; Word "auto"]); (GridTemplateColumns, [Word "auto"; Size 1]);
   (GridRow, [Int 1; Slash; Word "A"]); (GridRowEnd, [Word "b"])].
Definition rows1 : strip := (["x"], [(TSize (flex 1), ["y"]); (TSize auto, [])]).
Definition columns1 : strip := ([], [(TSize auto, []); (TSize (len 1), [])]).
Definition es1 : list (slot -> option value) :=
  [gives GridTemplateAreas [VAreas (Some [[Some "a"; Some "b"]])]; gives GridTemplateRows [VTracks (Some rows1)]; gives GridTemplateColumns [VTracks (Some columns1)];
   gives GridRow [VLine (LLine 1 None); VLine (LArea "A")]; gives GridRowEnd [VLine (LArea "b")]].
Ltac a_name := unfold css_name; repeat (apply Forall_cons || apply Forall_nil); unfold Is; cbn; discriminate.
Ltac a_size := first [apply gs_breadth, gb_auto; reflexivity | apply gs_breadth, gb_length, gl_size | apply gs_breadth, gb_flex; [reflexivity|discriminate]].
Lemma names_1 n : css_name n -> GNames (Names [Word n]) [n].
Proof. intros H. apply (gn_names [n]). constructor; [exact H|constructor]. Qed.
Lemma block1_reads : Forall2 Declares block1 es1.
Proof.
  repeat apply Forall2_cons; [..|apply Forall2_nil]; apply declares.
  - apply gv_areas, ga_rows; [|exact area_rows_ab]. constructor; [|constructor]. exists "a b". split; [reflexivity|exact cells_ab].
  - apply gv_rows, gz_strip. apply (gst _ [Names [Word "x"]] ["x"] [fr 1; Names [Word "y"]; Word "auto"]); [apply go_some, names_1; a_name| |discriminate].
    apply (gt_cons _ (fr 1) _ [Names [Word "y"]] ["y"] [Word "auto"]); [apply gt_size; a_size|apply go_some, names_1; a_name|].
    apply (gt_cons _ (Word "auto") _ [] [] []); [apply gt_size; a_size|constructor|constructor].
  - apply gv_columns, gz_strip. apply (gst _ [] [] [Word "auto"; Size 1]); [constructor| |discriminate].
    apply (gt_cons _ (Word "auto") _ [] [] [Size 1]); [apply gt_size; a_size|constructor|].
    apply (gt_cons _ (Size 1) _ [] [] []); [apply gt_size; a_size|constructor|constructor].
  - apply gv_row. apply (gp_two [Int 1] _ [Word "A"]); [apply gln_int; discriminate|apply gln_area; a_name].
  - apply gv_row_end, gln_area. a_name.
Qed.
Lemma block1_named : Forall lines_named block1.
Proof. repeat apply Forall_cons; [..|apply Forall_nil]; intros [H|H]; discriminate. Qed.
Lemma block1_fits minify : fits minify false (cascade es1).
Proof.
  intros rows columns areas R C A. cbn in R, C, A. injection R as <-. injection C as <-. injection A as <-. intros _ _. cbn. repeat split; [repeat constructor|discriminate|discriminate].
Qed.
Lemma block1_not_kept k d : nth_error block1 k = Some d -> ~ Kept d.
Proof.
  intros E K. apply nth_error_In in E. cbn in E.
  assert (V : forall l, Forall flat l -> ~ HasVar l) by exact words_clean.
  destruct E as [<-|[<-|[<-|[<-|[<-|[]]]]]]; inversion K; subst; try match goal with H : _ \/ _ |- _ => destruct H; discriminate end;
  try match goal with H : HasVar _ |- _ => revert H end;
  try (intros V'; repeat match goal with H : HasVar _ |- _ => inversion H; subst; clear H end; fail).
  all: repeat match goal with H : In _ _ |- _ => cbn in H end; intuition (try discriminate).
  all: repeat match goal with H : Word _ = Word _ |- _ => injection H as <- end; unfold Is in *; cbn in *; discriminate.
Qed.

(** ** Grids that are not kept *)
Lemma changed_by minify block es l fs :
  Forall2 Declares block es -> option_map printed (process minify block) = Some l -> Forall2 Declares l fs -> ~ same_grid (cascade es) (cascade fs) -> changed minify block.
Proof.
  intros H P G N. destruct (process minify block) as [out|] eqn:Eo; [|discriminate]. injection P as <-. exists (cascade es), out. split; [exists es; split; [exact H|reflexivity]|]. split; [exact Eo|]. intros f Hf S. apply N.
  assert (Q : forall s, cascade fs s = f s). { apply (block_once (printed out)); [exists fs; split; [exact G|reflexivity]|exact Hf]. }
  destruct S as [S1 S2]. split; [intros s Hs; rewrite Q; apply S1, Hs|]. rewrite Q. exact S2.
Qed.
Lemma changed_slot (e f : slot -> option value) s : s <> SAreas -> e s <> f s -> ~ same_grid e f.
Proof. intros H N [S _]. exact (N (S s H)). Qed.
Ltac block_of := repeat apply Forall2_cons; [..|apply Forall2_nil]; apply declares.
Lemma sizing_1 t s : GSize t s -> GSizing [t] (Some ([], [(TSize s, [])])).
Proof. intros H. apply gz_strip. apply (gst _ [] [] [t]); [constructor| |discriminate]. apply (gt_cons _ t _ [] [] []); [apply gt_size, H|constructor|constructor]. Qed.
Lemma sizing_2 t s u z : GSize t s -> GSize u z -> GSizing [t; u] (Some ([], [(TSize s, []); (TSize z, [])])).
Proof.
  intros H G. apply gz_strip. apply (gst _ [] [] [t; u]); [constructor| |discriminate].
  apply (gt_cons _ t _ [] [] [u]); [apply gt_size, H|constructor|]. apply (gt_cons _ u _ [] [] []); [apply gt_size, G|constructor|constructor].
Qed.
Lemma areas_1 s l : GCells s l -> area_rows [l] -> GAreas [Str s] (Some [l]).
Proof. intros H A. apply ga_rows; [|exact A]. constructor; [|constructor]. exists s. split; [reflexivity|exact H]. Qed.
Lemma areas_2 s l s' l' : GCells s l -> GCells s' l' -> area_rows [l; l'] -> GAreas [Str s; Str s'] (Some [l; l']).
Proof. intros H H' A. apply ga_rows; [|exact A]. constructor; [exists s; split; [reflexivity|exact H]|]. constructor; [|constructor]. exists s'. split; [reflexivity|exact H']. Qed.

(** [grid-template: "a" 1fr [x] "b" 2fr] *)
Definition shifted : list (prop * list tok) := [(GridTemplate, [Str "a"; fr 1; Names [Word "x"]; Str "b"; fr 2])].
Lemma row_of s cells t z b before a after : GBefore b before -> GCells s cells -> GSize t z -> GNamesOpt a after -> GRow (b ++ Str s :: [t] ++ a)%list (Row before cells z after).
Proof. intros. constructor; try assumption. apply gso_some. assumption. Qed.
Lemma shifted_reads : Forall2 Declares shifted [gives GridTemplate (three_values (Three (Some ([], [(TSize (flex 1), ["x"]); (TSize (flex 2), [])])) None (Some [[Some "a"]; [Some "b"]])))].
Proof.
  block_of. apply gv_template.
  apply (gtm_rows _ [Row None [Some "a"] (flex 1) ["x"]; Row None [Some "b"] (flex 2) []]); [|exact area_rows_a_b].
  apply (grs_cons [Str "a"; fr 1; Names [Word "x"]] _ [Str "b"; fr 2]).
  - apply (row_of _ _ (fr 1) _ [] None [Names [Word "x"]]); [constructor|exact cells_a|a_size|apply go_some, names_1; a_name].
  - apply (grs_cons [Str "b"; fr 2] _ []); [|constructor]. apply (row_of _ _ (fr 2) _ [] None []); [constructor|exact cells_b|a_size|constructor].
Qed.
Lemma shifted_changed minify : changed minify shifted.
Proof.
  eapply (changed_by minify shifted _ [(GridTemplate, [Names [Word "x"]; Str "a"; fr 1; Str "b"; fr 2])] [gives GridTemplate (three_values (Three (Some (["x"], [(TSize (flex 1), []); (TSize (flex 2), [])])) None (Some [[Some "a"]; [Some "b"]])))]).
  - exact shifted_reads.
  - destruct minify; vm_compute; reflexivity.
  - block_of. apply gv_template.
    apply (gtm_rows _ [Row (Some ["x"]) [Some "a"] (flex 1) []; Row None [Some "b"] (flex 2) []]); [|exact area_rows_a_b].
    apply (grs_cons [Names [Word "x"]; Str "a"; fr 1] _ [Str "b"; fr 2]).
    + apply (row_of _ _ (fr 1) _ [Names [Word "x"]] (Some ["x"]) []); [apply gbf_some, names_1; a_name|exact cells_a|a_size|constructor].
    + apply (grs_cons [Str "b"; fr 2] _ []); [|constructor]. apply (row_of _ _ (fr 2) _ [] None []); [constructor|exact cells_b|a_size|constructor].
  - apply (changed_slot _ _ SRows); [discriminate|]. vm_compute. congruence.
Qed.

(** [grid-template: [a b] "a" 1fr], not minified *)
Definition doubled : list (prop * list tok) := [(GridTemplate, [Names [Word "x"; Word "y"]; Str "a"; fr 1])].
Lemma doubled_changed : changed false doubled.
Proof.
  exists (cascade [gives GridTemplate (three_values (Three (Some (["x"; "y"], [(TSize (flex 1), [])])) None (Some [[Some "a"]])))]). eexists. split; [|split; [vm_compute; reflexivity|]].
  - eexists. split; [|reflexivity]. block_of. apply gv_template. apply (gtm_rows _ [Row (Some ["x"; "y"]) [Some "a"] (flex 1) []]); [|exact area_rows_a].
    apply (grs_cons [Names [Word "x"; Word "y"]; Str "a"; fr 1] _ []); [|constructor].
    apply (row_of _ _ (fr 1) _ [Names [Word "x"; Word "y"]] (Some ["x"; "y"]) []); [|exact cells_a|a_size|constructor].
    apply gbf_some. apply (gn_names ["x"; "y"]). constructor; [a_name|constructor; [a_name|constructor]].
  - intros f (es & H & _) _. cbn [printed map fst snd tokens flat_map app] in H. inversion H as [|d e l es' (vs & G & _) _]; subst. cbn [fst snd] in G.
    assert (NS : ~ In Slash [Names [Word "x"]; Names [Word "y"]; Str "a"; Fr 1%Q]) by (cbn; intuition discriminate).
    inversion G as [| | | | | |l t T E1 E2| | | | | | | | |p l V E1 E2]; subst.
    + inversion T as [|a b r c Ha Hb F1 F2|l rows Hl Hc F1 F2|l rows b c Hl Hc Hb Hx F1 F2]; subst.
      * apply NS. rewrite <- F1. apply in_or_app. right. left. reflexivity.
      * destruct (rows_result _ _ [] Hl Hc I) as [P (c & cs & C)]. rewrite app_nil_r in P. rewrite C in P. vm_compute in P. congruence.
      * apply NS. rewrite <- F1. apply in_or_app. right. left. reflexivity.
    + repeat match goal with H : HasVar _ |- _ => inversion H; subst; clear H end.
Qed.

(** [grid-template-areas: "a"; grid-template-rows: none; grid-template-columns: none; grid-auto-rows: auto; grid-auto-columns: 1px; grid-auto-flow: row] *)
Definition without_rows : list (prop * list tok) :=
  [(GridTemplateAreas, [Str "a"]); (GridTemplateRows, [Word "none"]); (GridTemplateColumns, [Word "none"]); (GridAutoRows, [Word "auto"]);
   (GridAutoColumns, [Size 1]); (GridAutoFlow, [Word "row"])].
Lemma without_rows_changed minify : changed minify without_rows.
Proof.
  eapply (changed_by minify without_rows
    [gives GridTemplateAreas [VAreas (Some [[Some "a"]])]; gives GridTemplateRows [VTracks None]; gives GridTemplateColumns [VTracks None];
     gives GridAutoRows [VSizes [auto]]; gives GridAutoColumns [VSizes [len 1]]; gives GridAutoFlow [VFlow (Flow false false)]]
    [(GridShorthand, [Word "auto-flow"; Slash; Word "none"]); (GridTemplateAreas, [Str "a"])]
    [gives GridShorthand (three_values (Three None None None) ++ [VSizes [auto]; VSizes [auto]; VFlow (Flow false false)])%list; gives GridTemplateAreas [VAreas (Some [[Some "a"]])]]).
  - block_of.
    + apply gv_areas, areas_1; [exact cells_a|exact area_rows_a].
    + apply gv_rows, gz_none. reflexivity.
    + apply gv_columns, gz_none. reflexivity.
    + apply gv_auto_rows. split; [constructor; [a_size|constructor]|discriminate].
    + apply gv_auto_columns. split; [constructor; [a_size|constructor]|discriminate].
    + apply gv_flow, gf_row. reflexivity.
  - destruct minify; vm_compute; reflexivity.
  - block_of.
    + apply (gv_grid _ (Six (Three None None None) [auto] [auto] (Flow false false))).
      apply (gg_columns [Word "auto-flow"] false [] [auto] [Word "none"] None); [constructor; reflexivity|constructor|constructor; reflexivity].
    + apply gv_areas, areas_1; [exact cells_a|exact area_rows_a].
  - apply (changed_slot _ _ SAutoColumns); [discriminate|]. vm_compute. congruence.
Qed.

(** [grid-template-areas: "a" "b"; grid-template-rows: 1px; grid-template-columns: 1px] *)
Definition more_areas : list (prop * list tok) := [(GridTemplateAreas, [Str "a"; Str "b"]); (GridTemplateRows, [Size 1]); (GridTemplateColumns, [Size 1])].
Lemma more_areas_changed minify : changed minify more_areas.
Proof.
  set (t := Three (Some ([], [(TSize (len 1), []); (TSize auto, [])])) (Some ([], [(TSize (len 1), [])])) (Some [[Some "a"]; [Some "b"]])).
  eapply (changed_by minify more_areas
    [gives GridTemplateAreas [VAreas (Some [[Some "a"]; [Some "b"]])]; gives GridTemplateRows [VTracks (Some ([], [(TSize (len 1), [])]))]; gives GridTemplateColumns [VTracks (Some ([], [(TSize (len 1), [])]))]]
    [(GridTemplate, [Str "a"; Size 1; Str "b"; Slash; Size 1])] [gives GridTemplate (three_values t)]).
  - block_of.
    + apply gv_areas, areas_2; [exact cells_a|exact cells_b|exact area_rows_a_b].
    + apply gv_rows, sizing_1. a_size.
    + apply gv_columns, sizing_1. a_size.
  - destruct minify; vm_compute; reflexivity.
  - block_of. apply gv_template.
    apply (gtm_both [Str "a"; Size 1; Str "b"] [Row None [Some "a"] (len 1) []; Row None [Some "b"] auto []] [Size 1]); [|exact area_rows_a_b| |repeat constructor].
    + apply (grs_cons [Str "a"; Size 1] _ [Str "b"]); [apply (row_of _ _ (Size 1) _ [] None []); [constructor|exact cells_a|a_size|constructor]|].
      apply (grs_cons [Str "b"] _ []); [|constructor]. apply (gr [] None "b" [Some "b"] [] auto [] []); [constructor|exact cells_b|constructor|constructor].
    + apply (gst _ [] [] [Size 1]); [constructor| |discriminate]. apply (gt_cons _ (Size 1) _ [] [] []); [apply gt_size; a_size|constructor|constructor].
  - apply (changed_slot _ _ SRows); [discriminate|]. vm_compute. congruence.
Qed.

(** [grid-template-areas: "a"; grid-template-rows: 1px 1px; grid-template-columns: 1px; grid-template-rows: var(--x)] *)
Definition later_rows : list (prop * list tok) :=
  [(GridTemplateAreas, [Str "a"]); (GridTemplateRows, [Size 1; Size 1]); (GridTemplateColumns, [Size 1]); (GridTemplateRows, [Fun "var" [Word "--x"]])].
Lemma cells_dot : GCells "." [None].
Proof. apply (gcl_null "" "." "" []); [exact I|discriminate|chars|exact (fun x => x)|constructor; exact I]. Qed.
Lemma area_rows_a_dot : area_rows [[Some "a"]; [None]].
Proof.
  split; [discriminate|]. split; [repeat constructor; discriminate|]. intros n. destruct (string_dec n "a") as [->|A]; [exists 0, 1, 0, 1; places|]. exists 0, 0, 0, 0. places.
Qed.
Lemma later_rows_changed minify : changed minify later_rows.
Proof.
  set (t := Three (Some ([], [(TSize (len 1), []); (TSize (len 1), [])])) (Some ([], [(TSize (len 1), [])])) (Some [[Some "a"]; [None]])).
  set (v := VRaw GridTemplateRows [Fun "var" [Word "--x"]]).
  assert (V : GValue GridTemplateRows [Fun "var" [Word "--x"]] [v]) by (apply (gv_raw GridTemplateRows); apply hv_here; reflexivity).
  eapply (changed_by minify later_rows
    [gives GridTemplateAreas [VAreas (Some [[Some "a"]])]; gives GridTemplateRows [VTracks (Some ([], [(TSize (len 1), []); (TSize (len 1), [])]))];
     gives GridTemplateColumns [VTracks (Some ([], [(TSize (len 1), [])]))]; gives GridTemplateRows [v]]
    [(GridTemplate, [Str "a"; Size 1; Str "."; Size 1; Slash; Size 1]); (GridTemplateRows, [Fun "var" [Word "--x"]])] [gives GridTemplate (three_values t); gives GridTemplateRows [v]]).
  - block_of.
    + apply gv_areas, areas_1; [exact cells_a|exact area_rows_a].
    + apply gv_rows, sizing_2; a_size.
    + apply gv_columns, sizing_1. a_size.
    + exact V.
  - destruct minify; vm_compute; reflexivity.
  - block_of; [|exact V]. apply gv_template.
    apply (gtm_both [Str "a"; Size 1; Str "."; Size 1] [Row None [Some "a"] (len 1) []; Row None [None] (len 1) []] [Size 1]); [|exact area_rows_a_dot| |repeat constructor].
    + apply (grs_cons [Str "a"; Size 1] _ [Str "."; Size 1]); [apply (row_of _ _ (Size 1) _ [] None []); [constructor|exact cells_a|a_size|constructor]|].
      apply (grs_cons [Str "."; Size 1] _ []); [|constructor]. apply (row_of _ _ (Size 1) _ [] None []); [constructor|exact cells_dot|a_size|constructor].
    + apply (gst _ [] [] [Size 1]); [constructor| |discriminate]. apply (gt_cons _ (Size 1) _ [] [] []); [apply gt_size; a_size|constructor|constructor].
  - intros [_ [S|(rows & a & b & S & _)]]; cbn in S; discriminate.
Qed.

(** [grid-template-areas: "a b" "b a"] is not valid; [grid-template-rows: 1px 1px; grid-template-columns: 1px 1px] are *)
Definition crossed : list (prop * list tok) := [(GridTemplateAreas, [Str "a b"; Str "b a"]); (GridTemplateRows, [Size 1; Size 1]); (GridTemplateColumns, [Size 1; Size 1])].
Definition crossed_result : list tok := [Str "a b"; Size 1; Str "b a"; Size 1; Slash; Size 1; Size 1].
Lemma crossed_no_rectangles : ~ rectangles [[Some "a"; Some "b"]; [Some "b"; Some "a"]].
Proof.
  intros R. destruct (R "a") as (r1 & r2 & c1 & c2 & H).
  pose proof (proj1 (H 0 0) eq_refl). pose proof (proj1 (H 1 1) eq_refl). assert (X : cell_at [[Some "a"; Some "b"]; [Some "b"; Some "a"]] 0 1 = Some "a") by (apply H; lia). cbn in X. discriminate.
Qed.
Lemma crossed_invalid vs : ~ GValue GridTemplate crossed_result vs.
Proof.
  intros G. assert (B : forall l rows rest, GRows l rows -> area_rows (map w_cells rows) -> ends rest -> (l ++ rest)%list = crossed_result -> False).
  { intros l rows rest Hl Hc He E. destruct (rows_result _ _ _ Hl Hc He) as [P _]. rewrite E in P. set (k := map w_cells rows) in *. clearbody k. set (k1 := columns_of k) in *. set (k2 := List.concat k) in *. assert (K : k1 = columns_of k /\ k2 = List.concat k) by (split; reflexivity). clearbody k1 k2. set (k3 := names_result [] rows) in P. set (k4 := map w_size rows) in P. clearbody k3 k4. vm_compute in P. destruct K as [K1 K2].
    assert (Q : columns_of k = 2 /\ List.concat k = [Some "a"; Some "b"; Some "b"; Some "a"]). { rewrite <- K1, <- K2. injection P as P1 P2 P3 P4 P5. split; symmetry; [exact P3|exact P4]. }
    destruct Q as [Q1 Q2]. pose proof (rows_of_ok _ Hc) as R. rewrite Q1, Q2 in R. rewrite <- R in Hc. destruct Hc as (_ & _ & Hc). exact (crossed_no_rectangles Hc). }
  inversion G as [| | | | | |l t T E1 E2| | | | | | | | |p l V E1 E2]; subst.
  - inversion T as [|a b r c Ha Hb F1 F2|l rows Hl Hc F1 F2|l rows b c Hl Hc Hb Hx F1 F2]; subst.
    + assert (X : exists x, a = Str "a b" :: x) by (destruct a as [|u a]; [discriminate|]; injection F1 as -> _; eauto). destruct X as [x ->]. pose proof (read_sizing _ _ [] Ha I) as P. rewrite app_nil_r in P. cbn in P. discriminate.
    + eapply (B _ _ []); [exact Hl|exact Hc|exact I|apply app_nil_r].
    + eapply (B _ _ (Slash :: b)); [exact Hl|exact Hc|reflexivity|exact F1].
  - repeat match goal with H : HasVar _ |- _ => inversion H; subst; clear H end.
Qed.
