(** * Grid declarations as CSS Grid Layout (levels 1 and 2) reads them

    A grammar with meanings, as relations on tokens; it uses the tokens and the plain data of GridModel
    (sizes, lines), but none of its functions. *)
From Coq Require Import List Bool QArith ZArith Ascii String.
From Verif Require Import AnimModel GridModel.
Import ListNotations.
Local Open Scope nat_scope.
Local Open Scope string_scope.

(** A keyword, in any letter case *)
Definition Is (kw s : string) : Prop := lower s = kw.
(** [<custom-ident>] where [span] and [auto] are excluded *)
Definition css_name (s : string) : Prop :=
  Forall (fun kw => ~ Is kw s) ["initial"; "inherit"; "unset"; "default"; "revert"; "revert-layer"; "span"; "auto"].

(** ** Tracks *)
Inductive GLength : tok -> length -> Prop :=
| gl_size n : GLength (Size n) (Len n)
| gl_zero : GLength (Int 0) Zero.
(** [<track-breadth>]; without flexible ones [<inflexible-breadth>] *)
Inductive GBreadth (flexible : bool) : tok -> breadth -> Prop :=
| gb_length t l : GLength t l -> GBreadth flexible t (BLength l)
| gb_flex q : flexible = true -> (0 <= q)%Q -> GBreadth flexible (Fr q) (BFlex q)
| gb_min s : Is "min-content" s -> GBreadth flexible (Word s) MinContent
| gb_max s : Is "max-content" s -> GBreadth flexible (Word s) MaxContent
| gb_auto s : Is "auto" s -> GBreadth flexible (Word s) BAuto.
Inductive GSize : tok -> size -> Prop :=
| gs_breadth t b : GBreadth true t b -> GSize t (Breadth b)
| gs_minmax f t a u b : Is "minmax" f -> GBreadth false t a -> GBreadth true u b -> GSize (Fun f [t; Comma; u]) (MinMax a b)
| gs_fit f t l : Is "fit-content" f -> GLength t l -> GSize (Fun f [t]) (Fit l).
(** [<line-names>?] *)
Inductive GNames : tok -> list string -> Prop :=
| gn_names l : Forall css_name l -> GNames (Names (map Word l)) l.
Inductive GNamesOpt : list tok -> list string -> Prop :=
| go_none : GNamesOpt [] []
| go_some t n : GNames t n -> GNamesOpt [t] n.
(** Tracks, with the names of the line before the first and of the line after each *)
Inductive GTail {A} (item : tok -> A -> Prop) : list tok -> list (A * list string) -> Prop :=
| gt_nil : GTail item [] []
| gt_cons t i ns n r l : item t i -> GNamesOpt ns n -> GTail item r l -> GTail item (t :: ns ++ r) ((i, n) :: l).
Inductive GStrip {A} (item : tok -> A -> Prop) : list tok -> list string * list (A * list string) -> Prop :=
| gst ns n r l : GNamesOpt ns n -> GTail item r l -> l <> [] -> GStrip item (ns ++ r) (n, l).
Inductive GCount : tok -> count -> Prop :=
| gc_int z : (1 <= z)%Z -> GCount (Int z) (Times z)
| gc_fill s : Is "auto-fill" s -> GCount (Word s) AutoFill
| gc_fit s : Is "auto-fit" s -> GCount (Word s) AutoFit.
Inductive track := TSize (s : size) | TRepeat (c : count) (l : list string * list (size * list string)).
Inductive GTrack : tok -> track -> Prop :=
| gt_size t s : GSize t s -> GTrack t (TSize s)
| gt_repeat f t c l s : Is "repeat" f -> GCount t c -> GStrip GSize l s -> GTrack (Fun f (t :: Comma :: l)) (TRepeat c s).
Definition strip : Type := list string * list (track * list string).
(** [grid-template-rows] and [grid-template-columns]; [None] is [none] *)
Inductive GSizing : list tok -> option strip -> Prop :=
| gz_none s : Is "none" s -> GSizing [Word s] None
| gz_strip l s : GStrip GTrack l s -> GSizing l (Some s).
(** [grid-auto-rows] and [grid-auto-columns] *)
Definition GSizes (l : list tok) (s : list size) : Prop := Forall2 GSize l s /\ s <> [].

(** ** Areas *)
Fixpoint all_chars (p : ascii -> Prop) (s : string) : Prop := match s with "" => True | String c r => p c /\ all_chars p r end.
Definition starts (p : ascii -> Prop) (s : string) : Prop := match s with "" => False | String c _ => p c end.
Definition is_blank (c : ascii) : Prop := In c (map ascii_of_nat [32; 9; 10; 12; 13]).
Definition is_dot (c : ascii) : Prop := c = "."%char.
(** Identifier code points; the bytes of characters beyond ASCII are all of them *)
Definition is_name (c : ascii) : Prop :=
  let n := nat_of_ascii c in 65 <= n <= 90 \/ 97 <= n <= 122 \/ 48 <= n <= 57 \/ c = "_"%char \/ c = "-"%char \/ 128 <= n.
(** The cells in a string: the longest sequence of name characters, or of dots, is one cell *)
Inductive GCells : string -> list cell -> Prop :=
| gcl_end s : all_chars is_blank s -> GCells s []
| gcl_name w n s l : all_chars is_blank w -> n <> "" -> all_chars is_name n -> ~ starts is_name s -> GCells s l -> GCells (w ++ n ++ s) (Some n :: l)
| gcl_null w d s l : all_chars is_blank w -> d <> "" -> all_chars is_dot d -> ~ starts is_dot s -> GCells s l -> GCells (w ++ d ++ s) (None :: l).
(** What is at a place *)
Definition cell_at (rows : list (list cell)) (r c : nat) : cell :=
  match nth_error rows r with Some l => match nth_error l c with Some x => x | None => None end | None => None end.
(** The cells of a name are a rectangle *)
Definition rectangles (rows : list (list cell)) : Prop :=
  forall n, exists r1 r2 c1 c2, forall r c, cell_at rows r c = Some n <-> (r1 <= r < r2 /\ c1 <= c < c2).
Definition columns_of (rows : list (list cell)) : nat := match rows with [] => 0 | r :: _ => List.length r end.
Definition area_rows (rows : list (list cell)) : Prop :=
  rows <> [] /\ Forall (fun r => List.length r = columns_of rows /\ r <> []) rows /\ rectangles rows.
Inductive GAreas : list tok -> option (list (list cell)) -> Prop :=
| ga_none s : Is "none" s -> GAreas [Word s] None
| ga_rows l rows : Forall2 (fun t r => exists s, t = Str s /\ GCells s r) l rows -> area_rows rows -> GAreas l (Some rows).

(** ** [grid-template] *)
(** [<line-names>? <string> <track-size>? <line-names>?]; the names before may be left out *)
Record row := Row { w_before : option (list string); w_cells : list cell; w_size : size; w_after : list string }.
Inductive GSizeOpt : list tok -> size -> Prop :=
| gso_none : GSizeOpt [] (Breadth BAuto)
| gso_some t s : GSize t s -> GSizeOpt [t] s.
Inductive GBefore : list tok -> option (list string) -> Prop :=
| gbf_none : GBefore [] None
| gbf_some t n : GNames t n -> GBefore [t] (Some n).
Inductive GRow : list tok -> row -> Prop :=
| gr b before s cells z size a after :
    GBefore b before -> GCells s cells -> GSizeOpt z size -> GNamesOpt a after -> GRow (b ++ Str s :: z ++ a) (Row before cells size after).
Inductive GRows : list tok -> list row -> Prop :=
| grs_nil : GRows [] []
| grs_cons a r b l : GRow a r -> GRows b l -> GRows (a ++ b) (r :: l).
Definition names_before (r : row) : list string := match w_before r with Some n => n | None => [] end.
(** The tracks of such rows: the names after a row and before the next are names of the same line *)
Fixpoint tracks_after (l : list row) : list (track * list string) :=
  match l with
  | [] => []
  | r :: rest => (TSize (w_size r), (w_after r ++ match rest with [] => [] | n :: _ => names_before n end)%list) :: tracks_after rest
  end.
Definition tracks_of (l : list row) : strip := (match l with [] => [] | r :: _ => names_before r end, tracks_after l).
Definition explicit (s : strip) : Prop := Forall (fun t => match fst t with TSize _ => True | TRepeat _ _ => False end) (snd s).
Record three := Three { y_rows : option strip; y_columns : option strip; y_areas : option (list (list cell)) }.
Inductive GTemplate : list tok -> three -> Prop :=
| gtm_none s : Is "none" s -> GTemplate [Word s] (Three None None None)
| gtm_tracks a b r c : GSizing a r -> GSizing b c -> GTemplate (a ++ Slash :: b) (Three r c None)
| gtm_rows l rows : GRows l rows -> area_rows (map w_cells rows) -> GTemplate l (Three (Some (tracks_of rows)) None (Some (map w_cells rows)))
| gtm_both l rows b c : GRows l rows -> area_rows (map w_cells rows) -> GStrip GTrack b c -> explicit c ->
    GTemplate (l ++ Slash :: b) (Three (Some (tracks_of rows)) (Some c) (Some (map w_cells rows))).

(** ** [grid-auto-flow] and [grid] *)
Inductive GFlow : list tok -> flow -> Prop :=
| gf_row s : Is "row" s -> GFlow [Word s] (Flow false false)
| gf_column s : Is "column" s -> GFlow [Word s] (Flow true false)
| gf_dense s : Is "dense" s -> GFlow [Word s] (Flow false true)
| gf_row_dense s d : Is "row" s -> Is "dense" d -> GFlow [Word s; Word d] (Flow false true)
| gf_dense_row s d : Is "row" s -> Is "dense" d -> GFlow [Word d; Word s] (Flow false true)
| gf_column_dense s d : Is "column" s -> Is "dense" d -> GFlow [Word s; Word d] (Flow true true)
| gf_dense_column s d : Is "column" s -> Is "dense" d -> GFlow [Word d; Word s] (Flow true true).
(** [auto-flow && dense?] *)
Inductive GAutoFlow : list tok -> bool -> Prop :=
| gaf s : Is "auto-flow" s -> GAutoFlow [Word s] false
| gaf_dense s d : Is "auto-flow" s -> Is "dense" d -> GAutoFlow [Word s; Word d] true
| gaf_dense_first s d : Is "auto-flow" s -> Is "dense" d -> GAutoFlow [Word d; Word s] true.
Inductive GSizesOpt : list tok -> list size -> Prop :=
| gzo_none : GSizesOpt [] [Breadth BAuto]
| gzo_some l s : GSizes l s -> GSizesOpt l s.
Record six := Six { x_three : three; x_auto_rows : list size; x_auto_columns : list size; x_flow : flow }.
Inductive GGrid : list tok -> six -> Prop :=
| gg_template l t : GTemplate l t -> GGrid l (Six t [Breadth BAuto] [Breadth BAuto] (Flow false false))
| gg_rows a r f d z sizes : GSizing a r -> GAutoFlow f d -> GSizesOpt z sizes ->
    GGrid (a ++ Slash :: f ++ z) (Six (Three r None None) [Breadth BAuto] sizes (Flow true d))
| gg_columns f d z sizes b c : GAutoFlow f d -> GSizesOpt z sizes -> GSizing b c ->
    GGrid (f ++ z ++ Slash :: b) (Six (Three None c None) sizes [Breadth BAuto] (Flow false d)).

(** ** Lines *)
(** [<grid-line>]: [span] may come first or last *)
Inductive GSpan : list tok -> line -> Prop :=
| gsp_int z : (1 <= z)%Z -> GSpan [Int z] (LSpan z None)
| gsp_name n : css_name n -> GSpan [Word n] (LSpan 1 (Some n))
| gsp_both z n : (1 <= z)%Z -> css_name n -> GSpan [Int z; Word n] (LSpan z (Some n))
| gsp_name_first z n : (1 <= z)%Z -> css_name n -> GSpan [Word n; Int z] (LSpan z (Some n)).
Inductive GLine : list tok -> line -> Prop :=
| gln_auto s : Is "auto" s -> GLine [Word s] LAuto
| gln_area n : css_name n -> GLine [Word n] (LArea n)
| gln_int z : z <> 0%Z -> GLine [Int z] (LLine z None)
| gln_both z n : z <> 0%Z -> css_name n -> GLine [Int z; Word n] (LLine z (Some n))
| gln_name_first z n : z <> 0%Z -> css_name n -> GLine [Word n; Int z] (LLine z (Some n))
| gln_span s l x : Is "span" s -> GSpan l x -> GLine (Word s :: l) x
| gln_span_last s l x : Is "span" s -> GSpan l x -> GLine (l ++ [Word s]) x.
(** A line that is left out is the same name, or [auto] *)
Definition opposite (a : line) : line := match a with LArea n => LArea n | _ => LAuto end.
Inductive GPair : list tok -> line * line -> Prop :=
| gp_one l a : GLine l a -> GPair l (a, opposite a)
| gp_two l a m b : GLine l a -> GLine m b -> GPair (l ++ Slash :: m) (a, b).
(** [grid-area]: row start, column start, row end, column end *)
Inductive GFour : list tok -> line * line * line * line -> Prop :=
| g4_one l a : GLine l a -> GFour l (a, opposite a, opposite a, opposite a)
| g4_two l a m b : GLine l a -> GLine m b -> GFour (l ++ Slash :: m) (a, b, opposite a, opposite b)
| g4_three l a m b n c : GLine l a -> GLine m b -> GLine n c -> GFour (l ++ Slash :: m ++ Slash :: n) (a, b, c, opposite b)
| g4_four l a m b n c o d : GLine l a -> GLine m b -> GLine n c -> GLine o d -> GFour (l ++ Slash :: m ++ Slash :: n ++ Slash :: o) (a, b, c, d).

(** ** Declarations *)
Inductive slot := SRows | SColumns | SAreas | SAutoRows | SAutoColumns | SFlow | SRowStart | SColumnStart | SRowEnd | SColumnEnd.
Inductive value :=
| VTracks (s : option strip) | VAreas (a : option (list (list cell))) | VSizes (l : list size) | VFlow (f : flow) | VLine (l : line)
| VRaw (p : prop) (l : list tok).
(** The longhands of a property *)
Definition longhands (p : prop) : list slot :=
  match p with
  | GridTemplateRows => [SRows] | GridTemplateColumns => [SColumns] | GridTemplateAreas => [SAreas]
  | GridAutoRows => [SAutoRows] | GridAutoColumns => [SAutoColumns] | GridAutoFlow => [SFlow]
  | GridTemplate => [SRows; SColumns; SAreas]
  | GridShorthand => [SRows; SColumns; SAreas; SAutoRows; SAutoColumns; SFlow]
  | GridRowStart => [SRowStart] | GridRowEnd => [SRowEnd] | GridColumnStart => [SColumnStart] | GridColumnEnd => [SColumnEnd]
  | GridRow => [SRowStart; SRowEnd] | GridColumn => [SColumnStart; SColumnEnd]
  | GridArea => [SRowStart; SColumnStart; SRowEnd; SColumnEnd]
  end.
Definition slot_eq_dec (a b : slot) : {a = b} + {a <> b}.
Proof. decide equality. Defined.
(** Values for longhands, in the order of [longhands] *)
Fixpoint assign (ss : list slot) (vs : list value) (s : slot) : option value :=
  match ss, vs with x :: ss, v :: vs => if slot_eq_dec x s then Some v else assign ss vs s | _, _ => None end.
(** [var()] in a value, at any depth *)
Inductive HasVar : list tok -> Prop :=
| hv_here f l r : Is "var" f -> HasVar (Fun f l :: r)
| hv_fun f l r : HasVar l -> HasVar (Fun f l :: r)
| hv_names l r : HasVar l -> HasVar (Names l :: r)
| hv_later t r : HasVar r -> HasVar (t :: r).
Definition three_values (t : three) : list value := [VTracks (y_rows t); VTracks (y_columns t); VAreas (y_areas t)].
Inductive GValue : prop -> list tok -> list value -> Prop :=
| gv_rows l s : GSizing l s -> GValue GridTemplateRows l [VTracks s]
| gv_columns l s : GSizing l s -> GValue GridTemplateColumns l [VTracks s]
| gv_areas l a : GAreas l a -> GValue GridTemplateAreas l [VAreas a]
| gv_auto_rows l s : GSizes l s -> GValue GridAutoRows l [VSizes s]
| gv_auto_columns l s : GSizes l s -> GValue GridAutoColumns l [VSizes s]
| gv_flow l f : GFlow l f -> GValue GridAutoFlow l [VFlow f]
| gv_template l t : GTemplate l t -> GValue GridTemplate l (three_values t)
| gv_grid l g : GGrid l g -> GValue GridShorthand l (three_values (x_three g) ++ [VSizes (x_auto_rows g); VSizes (x_auto_columns g); VFlow (x_flow g)])
| gv_row_start l a : GLine l a -> GValue GridRowStart l [VLine a]
| gv_row_end l a : GLine l a -> GValue GridRowEnd l [VLine a]
| gv_column_start l a : GLine l a -> GValue GridColumnStart l [VLine a]
| gv_column_end l a : GLine l a -> GValue GridColumnEnd l [VLine a]
| gv_row l a b : GPair l (a, b) -> GValue GridRow l [VLine a; VLine b]
| gv_column l a b : GPair l (a, b) -> GValue GridColumn l [VLine a; VLine b]
| gv_area l a b c d : GFour l (a, b, c, d) -> GValue GridArea l [VLine a; VLine b; VLine c; VLine d]
(** Variables are substituted later: until then nothing more is known *)
| gv_raw p l : HasVar l -> GValue p l (map (fun _ => VRaw p l) (longhands p)).
(** A declaration, and what it gives to which longhand *)
Definition Declares (d : prop * list tok) (e : slot -> option value) : Prop :=
  exists vs, GValue (fst d) (snd d) vs /\ forall s, e s = assign (longhands (fst d)) vs s.
(** Later declarations win *)
Fixpoint cascade (l : list (slot -> option value)) (s : slot) : option value :=
  match l with [] => None | e :: r => match cascade r s with Some v => Some v | None => e s end end.
(** What a block of declarations gives to the longhands *)
Definition Block (l : list (prop * list tok)) (e : slot -> option value) : Prop :=
  exists es, Forall2 Declares l es /\ forall s, e s = cascade es s.

(** ** The same grid *)
(** Rows of unnamed cells make no difference if there are tracks for them: the same names at the same places, and as many rows
    and columns *)
Definition same_areas (rows : strip) (a b : list (list cell)) : Prop :=
  explicit rows /\ columns_of a = columns_of b
  /\ Nat.max (List.length (snd rows)) (List.length a) = Nat.max (List.length (snd rows)) (List.length b)
  /\ forall r c, cell_at a r c = cell_at b r c.
Definition same_grid (e f : slot -> option value) : Prop :=
  (forall s, s <> SAreas -> e s = f s) /\
  (e SAreas = f SAreas \/
   exists rows a b, e SRows = Some (VTracks (Some rows)) /\ e SAreas = Some (VAreas (Some a)) /\ f SAreas = Some (VAreas (Some b)) /\ same_areas rows a b).

(** ** Where the grid is kept *)
(** If no names are given for the line before the first row, there are none for the other lines between rows *)
Definition lines_named (d : prop * list tok) : Prop :=
  fst d = GridTemplate \/ fst d = GridShorthand -> forall s a x b, snd d = (Str s :: a ++ Names x :: b)%list -> x = [] \/ In Slash a.
(** Declarations that may stay as they are, so that those before are printed before them *)
Inductive Kept : prop * list tok -> Prop :=
| kp_var p l : HasVar l -> Kept (p, l)
| kp_dense s : Is "dense" s -> Kept (GridAutoFlow, [Word s])
| kp_none p s r : p = GridTemplate \/ p = GridShorthand -> Is "none" s -> Kept (p, Word s :: Slash :: r)
| kp_span p l s : In p [GridRowStart; GridRowEnd; GridColumnStart; GridColumnEnd; GridRow; GridColumn; GridArea] -> In (Word s) l -> Is "span" s -> Kept (p, l).
(** What declarations give fits a shorthand: no more rows of areas than rows of tracks (as many, if other
    declarations follow), no [grid-auto-columns] with areas and without rows, and, if not minified, not two names
    before the first row *)
Definition fits (minify exact : bool) (e : slot -> option value) : Prop :=
  forall rows columns areas, e SRows = Some (VTracks rows) -> e SColumns = Some (VTracks columns) -> e SAreas = Some (VAreas (Some areas)) ->
  match rows with
  | None => forall d l, e SFlow = Some (VFlow (Flow false d)) -> e SAutoColumns = Some (VSizes l) -> l = [Breadth BAuto]
  | Some s =>
      explicit s -> match columns with Some c => explicit c | None => True end ->
      List.length areas <= List.length (snd s) /\ (exact = true -> List.length areas = List.length (snd s))
      /\ (minify = false -> List.length (fst s) <> 2)
  end.

(** ** The text *)
(** Two tokens that would be one without white space between them: words, numbers and dimensions before those or before a function *)
Definition tail_sticks (t : tok) : Prop := match t with Word _ | Int _ | Size _ | Fr _ | Other _ => True | _ => False end.
Definition head_sticks (t : tok) : Prop := match t with Word _ | Int _ | Size _ | Fr _ | Fun _ _ | Other _ => True | _ => False end.
Inductive SetApart : list piece -> Prop :=
| sa_nil : SetApart []
| sa_one p : SetApart [p]
| sa_space r : SetApart r -> SetApart (Sp :: r)
| sa_before_space t r : SetApart (Sp :: r) -> SetApart (T t :: Sp :: r)
| sa_tokens t u r : ~ (tail_sticks t /\ head_sticks u) -> SetApart (T u :: r) -> SetApart (T t :: T u :: r).
Definition tokens (l : list piece) : list tok := flat_map (fun p => match p with T t => [t] | Sp => [] end) l.
