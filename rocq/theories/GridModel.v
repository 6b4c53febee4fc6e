(** * Grid layout: values, parsers, printers and the handler (/repo/src/properties/grid.rs)

    Simplifications.  Tokens are trees without white space and comments; lengths and percentages other
    than [0] are numbers ([Size n]), read and printed as they are; letter case counts as in
    [match_ignore_ascii_case!].  Without CSS modules ([write_ident], grid.rs:398-421, is then the
    serialisation of an identifier, see C50).  Strings are what they denote: the escapes that
    [write_ident] puts in the strings of areas are not written.  White space that is printed is one
    piece [Sp], whatever it is (a space, a line break, indentation). *)
From Coq Require Import List Bool QArith ZArith Ascii String.
From Verif Require Import AnimModel.
Import ListNotations.
Local Open Scope nat_scope.
Local Open Scope string_scope.
Local Open Scope bool_scope.

(** Component values *)
Inductive tok :=
| Word (s : string) | Int (z : Z) | Size (n : nat) | Fr (q : Q) | Str (s : string) | Slash | Comma
| Names (l : list tok) | Fun (f : string) (l : list tok) | Other (n : nat).

(** values/length.rs [LengthPercentage]: see above *)
Inductive length := Zero | Len (n : nat).
(** grid.rs:141-152 *)
Inductive breadth := BLength (l : length) | BFlex (q : Q) | MinContent | MaxContent | BAuto.
(** grid.rs:98-112 *)
Inductive size := Breadth (b : breadth) | MinMax (a b : breadth) | Fit (l : length).
(** grid.rs:190-197 *)
Inductive count := Times (z : Z) | AutoFill | AutoFit.
(** grid.rs:77-83, 167-175 *)
Inductive item := One (s : size) | Repeat (c : count) (names : list (list string)) (sizes : list size).
(** grid.rs:57-63 *)
Record tracks := TrackList { t_names : list (list string); t_items : list item }.
(** grid.rs:36-42 *)
Inductive sizing := NoTracks | Tracks (t : tracks).
(** grid.rs:546-557; an unnamed cell is [None] *)
Definition cell := option string.
Inductive areas := NoAreas | Areas (columns : nat) (cells : list cell).
(** grid.rs:949-956: the two bits *)
Record flow := Flow { f_column : bool; f_dense : bool }.
(** grid.rs:716-724, 1121-1135; [TrackSizeList] is a list *)
Record template := Template { p_rows : sizing; p_columns : sizing; p_areas : areas }.
Record grid := Grid { g_rows : sizing; g_columns : sizing; g_areas : areas; g_auto_rows : list size; g_auto_columns : list size; g_flow : flow }.
(** grid.rs:1358-1381 *)
Inductive line := LAuto | LArea (n : string) | LLine (z : Z) (n : option string) | LSpan (z : Z) (n : option string).

(** ** Parsers: a value and the tokens that are left *)

(** values/ident.rs:30-45 *)
Definition custom_ident (t : tok) : option string :=
  match t with Word s => if reserved s then None else Some s | _ => None end.
Definition word (kw : string) (t : tok) : bool := match t with Word s => is_kw kw s | _ => false end.

Definition parse_length (t : tok) : option length :=
  match t with Size n => Some (Len n) | Int 0 => Some Zero | _ => None end.
(** grid.rs:251-287 [parse_internal], [parse_flex] *)
Definition parse_breadth (allow_flex : bool) (t : tok) : option breadth :=
  match parse_length t with
  | Some l => Some (BLength l)
  | None =>
      match t with
      | Fr q => if allow_flex && Qle_bool 0 q then Some (BFlex q) else None
      | Word s =>
          if is_kw "auto" s then Some BAuto else if is_kw "min-content" s then Some MinContent
          else if is_kw "max-content" s then Some MaxContent else None
      | _ => None
      end
  end.
(** grid.rs:199-220 *)
Definition parse_size (t : tok) : option size :=
  match parse_breadth true t with
  | Some b => Some (Breadth b)
  | None =>
      match t with
      | Fun f l =>
          if is_kw "minmax" f then
            match l with
            | [a; Comma; b] => match parse_breadth false a, parse_breadth true b with Some a, Some b => Some (MinMax a b) | _, _ => None end
            | _ => None
            end
          else if is_kw "fit-content" f then match l with [a] => option_map Fit (parse_length a) | _ => None end
          else None
      | _ => None
      end
  end.
(** grid.rs:368-379: the block has to be read to its end *)
Fixpoint all_idents (l : list tok) : option (list string) :=
  match l with
  | [] => Some []
  | t :: r => match custom_ident t, all_idents r with Some n, Some ns => Some (n :: ns) | _, _ => None end
  end.
Definition parse_names (t : tok) : option (list string) := match t with Names l => all_idents l | _ => None end.
(** [input.try_parse(parse_line_names)] *)
Definition try_names (l : list tok) : option (list string) * list tok :=
  match l with t :: r => match parse_names t with Some n => (Some n, r) | None => (None, l) end | [] => (None, []) end.
Definition default_names (o : option (list string)) : list string := match o with Some n => n | None => [] end.
(** The loops of [TrackRepeat] and of [TrackList], grid.rs:311-324 and 425-441: names, then an item; every item is one token *)
Fixpoint track_loop {A} (item : tok -> option A) (l : list tok) : list (list string) * list A * list tok :=
  match l with
  | [] => ([[]], [], [])
  | t :: r =>
      match parse_names t with
      | Some n =>
          match r with
          | u :: r' =>
              match item u with
              | Some i => let '(ns, is, rest) := track_loop item r' in (n :: ns, i :: is, rest)
              | None => ([n], [], r)
              end
          | [] => ([n], [], [])
          end
      | None =>
          match item t with
          | Some i => let '(ns, is, rest) := track_loop item r in ([] :: ns, i :: is, rest)
          | None => ([[]], [], l)
          end
      end
  end.
(** grid.rs:190-197, derived *)
Definition parse_count (t : tok) : option count :=
  match t with
  | Int z => Some (Times z)
  | Word s => if is_kw "auto-fill" s then Some AutoFill else if is_kw "auto-fit" s then Some AutoFit else None
  | _ => None
  end.
(** grid.rs:304-333 *)
Definition parse_repeat (t : tok) : option item :=
  match t with
  | Fun f (c :: Comma :: l) =>
      if is_kw "repeat" f then
        match parse_count c with
        | Some c => match track_loop parse_size l with (ns, ss, []) => Some (Repeat c ns ss) | _ => None end
        | None => None
        end
      else None
  | _ => None
  end.
Definition parse_item (t : tok) : option item :=
  match parse_size t with Some s => Some (One s) | None => parse_repeat t end.
(** grid.rs:423-449 *)
Definition parse_tracks (l : list tok) : option (tracks * list tok) :=
  let '(ns, is, rest) := track_loop parse_item l in
  match is with [] => None | _ => Some (TrackList ns is, rest) end.
(** grid.rs:36-42, derived *)
Definition parse_sizing (l : list tok) : option (sizing * list tok) :=
  match l with
  | t :: r => if word "none" t then Some (NoTracks, r) else option_map (fun '(t, r) => (Tracks t, r)) (parse_tracks l)
  | [] => None
  end.
(** grid.rs:500-511 *)
Fixpoint size_loop (l : list tok) : list size * list tok :=
  match l with
  | t :: r => match parse_size t with Some s => let (ss, rest) := size_loop r in (s :: ss, rest) | None => ([], l) end
  | [] => ([], [])
  end.
Definition is_auto (s : size) : bool := match s with Breadth BAuto => true | _ => false end.
Definition parse_sizes (l : list tok) : list size * list tok :=
  let (ss, rest) := size_loop l in
  (match ss with [s] => if is_auto s then [] else ss | _ => ss end, rest).

(** grid.rs:621-625 *)
Definition code (c : ascii) : nat := nat_of_ascii c.
Definition blank (c : ascii) : bool :=
  Nat.eqb (code c) 32 || Nat.eqb (code c) 9 || Nat.eqb (code c) 10 || Nat.eqb (code c) 12 || Nat.eqb (code c) 13.
Definition within (a b : nat) (c : ascii) : bool := Nat.leb a (code c) && Nat.leb (code c) b.
Definition name_char (c : ascii) : bool :=
  within 65 90 c || within 97 122 c || Nat.leb 128 (code c) || Nat.eqb (code c) 95 || within 48 57 c || Nat.eqb (code c) 45.
Definition dot (c : ascii) : bool := Nat.eqb (code c) 46.
(** [trim_start_matches] and [find] *)
Fixpoint drop_while (p : ascii -> bool) (s : string) : string :=
  match s with "" => "" | String c r => if p c then drop_while p r else s end.
Fixpoint take_while (p : ascii -> bool) (s : string) : string :=
  match s with "" => "" | String c r => if p c then String c (take_while p r) else "" end.
(** grid.rs:586-618, the loop, with fuel for the characters *)
Fixpoint cells_loop (fuel : nat) (s : string) : option (list cell) :=
  match fuel with
  | 0 => None
  | S fuel =>
      let rest := drop_while blank s in
      match rest with
      | "" => Some []
      | String c _ =>
          if dot c then option_map (cons None) (cells_loop fuel (drop_while dot rest))
          else if name_char c then option_map (cons (Some (take_while name_char rest))) (cells_loop fuel (drop_while name_char rest))
          else None
      end
  end.
Definition parse_string (s : string) : option (list cell) :=
  match cells_loop (S (String.length s)) s with Some [] => None | o => o end.
(** grid.rs:559-583, the loop; [row] is whether this is the first row *)
Fixpoint area_loop (first : bool) (columns : nat) (l : list tok) : option (nat * list cell * list tok) :=
  match l with
  | Str s :: r =>
      match parse_string s with
      | Some cs =>
          let n := List.length cs in
          if first then option_map (fun '(c, k, rest) => (c, cs ++ k, rest)%list) (area_loop false n r)
          else if Nat.eqb n columns then option_map (fun '(c, k, rest) => (c, cs ++ k, rest)%list) (area_loop false columns r)
          else None
      | None => None
      end
  | _ => Some (columns, [], l)
  end.
Definition parse_areas (l : list tok) : option (areas * list tok) :=
  match l with
  | t :: r => if word "none" t then Some (NoAreas, r) else option_map (fun '(c, k, rest) => (Areas c k, rest)) (area_loop true 0 l)
  | [] => Some (Areas 0 [], [])
  end.

(** grid.rs:744-773, the loop of [GridTemplate], with fuel for the tokens.  The result of
    [extend_last] is [line_names] after grid.rs:745-751. *)
Fixpoint extend_last (ns : list (list string)) (n : list string) : list (list string) :=
  match ns with [] => [n] | [m] => [m ++ n]%list | m :: r => m :: extend_last r n end.
Record rows_state := Rows { r_names : list (list string); r_sizes : list size; r_columns : nat; r_cells : list cell }.
Fixpoint template_loop (fuel : nat) (st : rows_state) (l : list tok) : option (rows_state * list tok) :=
  match fuel with
  | 0 => None
  | S fuel =>
      let (first_names, l1) := try_names l in
      let names1 := match first_names with Some n => extend_last (r_names st) n | None => r_names st end in
      match l1 with
      | Str s :: l2 =>
          match parse_string s with
          | None => None
          | Some cs =>
              let n := List.length cs in
              let columns := match r_sizes st with [] => n | _ => r_columns st end in
              if negb (Nat.eqb n columns) then None
              else
                let (sz, l3) := match l2 with
                                | t :: r => match parse_size t with Some z => (z, r) | None => (Breadth BAuto, l2) end
                                | [] => (Breadth BAuto, [])
                                end in
                let (last_names, l4) := try_names l3 in
                template_loop fuel (Rows (names1 ++ [default_names last_names]) (r_sizes st ++ [sz]) columns (r_cells st ++ cs)) l4
          end
      | _ => Some (Rows names1 (r_sizes st) (r_columns st) (r_cells st), l1)
      end
  end.
(** grid.rs:485-498 *)
Definition explicit_item (i : item) : bool := match i with One _ => true | _ => false end.
Definition explicit_tracks (t : tracks) : bool := forallb explicit_item (t_items t).
Definition explicit_sizing (s : sizing) : bool := match s with NoTracks => true | Tracks t => explicit_tracks t end.
(** grid.rs:726-804 *)
Definition parse_template (l : list tok) : option (template * list tok) :=
  match l with
  | t :: r =>
      if word "none" t then match r with [] => Some (Template NoTracks NoTracks NoAreas, []) | _ => None end
      else
        match template_loop (S (List.length l)) (Rows [] [] 0 []) l with
        | None => None
        | Some (st, rest) =>
            match r_cells st with
            | _ :: _ =>
                let names := if Nat.eqb (List.length (r_names st)) (List.length (r_sizes st)) then (r_names st ++ [[]])%list else r_names st in
                let rows := Tracks (TrackList names (map One (r_sizes st))) in
                let areas := Areas (r_columns st) (r_cells st) in
                match rest with
                | Slash :: rest' =>
                    match parse_tracks rest' with
                    | Some (t, r') => if explicit_tracks t then Some (Template rows (Tracks t) areas, r') else None
                    | None => None
                    end
                | _ => Some (Template rows NoTracks areas, rest)
                end
            | [] =>
                match parse_sizing l with
                | Some (rows, Slash :: r1) => option_map (fun '(columns, r2) => (Template rows columns NoAreas, r2)) (parse_sizing r1)
                | _ => None
                end
            end
        end
  | [] => None
  end.

(** grid.rs:1034-1080: after [dense] a direction has to follow *)
Definition parse_flow (l : list tok) : option (flow * list tok) :=
  let after (column : bool) (r : list tok) :=
    match r with t :: r' => if word "dense" t then (Flow column true, r') else (Flow column false, r) | [] => (Flow column false, []) end in
  match l with
  | t :: r =>
      if word "row" t then Some (after false r)
      else if word "column" t then Some (after true r)
      else if word "dense" t then
        match r with u :: r' => if word "row" u then Some (Flow false true, r') else if word "column" u then Some (Flow true true, r') else None | [] => None end
      else None
  | [] => None
  end.
(** grid.rs:1182-1198 *)
Definition parse_auto_flow (column : bool) (l : list tok) : option (flow * list tok) :=
  match l with
  | t :: r =>
      if word "auto-flow" t then
        match r with u :: r' => if word "dense" u then Some (Flow column true, r') else Some (Flow column false, r) | [] => Some (Flow column false, []) end
      else if word "dense" t then
        match r with u :: r' => if word "auto-flow" u then Some (Flow column true, r') else None | [] => None end
      else None
  | [] => None
  end.
Definition row_flow : flow := Flow false false.
(** grid.rs:1137-1180 *)
Definition parse_grid (l : list tok) : option (grid * list tok) :=
  match parse_template l with
  | Some (t, rest) => Some (Grid (p_rows t) (p_columns t) (p_areas t) [] [] row_flow, rest)
  | None =>
      match parse_sizing l with
      | Some (rows, Slash :: r1) =>
          option_map (fun '(f, r2) => let (sizes, r3) := parse_sizes r2 in (Grid rows NoTracks NoAreas [] sizes f, r3)) (parse_auto_flow true r1)
      | Some _ => None
      | None =>
          match parse_auto_flow false l with
          | Some (f, r1) =>
              let (sizes, r2) := parse_sizes r1 in
              match r2 with
              | Slash :: r3 => option_map (fun '(columns, r4) => (Grid NoTracks columns NoAreas sizes [] f, r4)) (parse_sizing r3)
              | _ => None
              end
          | None => None
          end
      end
  end.

(** grid.rs:1383-1429 *)
Definition try_int (l : list tok) : option Z * list tok := match l with Int z :: r => (Some z, r) | _ => (None, l) end.
Definition try_ident (l : list tok) : option string * list tok :=
  match l with t :: r => match custom_ident t with Some n => (Some n, r) | None => (None, l) end | [] => (None, []) end.
Definition nonzero {A} (z : Z) (a : A) : option A := if Z.eqb z 0 then None else Some a.
Definition parse_line (l : list tok) : option (line * list tok) :=
  match l with
  | [] => None
  | t :: r =>
      if word "auto" t then Some (LAuto, r)
      else if word "span" t then
        match try_int r with
        | (Some z, r1) => let (n, r2) := try_ident r1 in nonzero z (LSpan z n, r2)
        | (None, _) =>
            match try_ident r with
            | (Some n, r1) => let (z, r2) := try_int r1 in let z := match z with Some z => z | None => 1%Z end in nonzero z (LSpan z (Some n), r2)
            | (None, _) => None
            end
        end
      else
        match try_int l with
        | (Some z, r1) => let (n, r2) := try_ident r1 in nonzero z (LLine z n, r2)
        | (None, _) =>
            match try_ident l with
            | (Some n, r1) => match try_int r1 with (Some z, r2) => nonzero z (LLine z (Some n), r2) | (None, _) => Some (LArea n, r1) end
            | (None, _) => None
            end
        end
  end.
(** grid.rs:1466-1472 *)
Definition default_end (l : line) : line := match l with LArea _ => l | _ => LAuto end.
(** grid.rs:1485-1498 *)
Definition parse_pair (l : list tok) : option (line * line * list tok) :=
  match parse_line l with
  | Some (a, Slash :: r) => option_map (fun '(b, r') => (a, b, r')) (parse_line r)
  | Some (a, r) => Some (a, default_end a, r)
  | None => None
  end.
(** grid.rs:1547-1607: row start, column start, row end, column end *)
Record area := Area { a_row_start : line; a_column_start : line; a_row_end : line; a_column_end : line }.
Definition parse_area (l : list tok) : option (area * list tok) :=
  match parse_line l with
  | None => None
  | Some (rs, Slash :: r1) =>
      match parse_line r1 with
      | None => None
      | Some (cs, Slash :: r2) =>
          match parse_line r2 with
          | None => None
          | Some (re, Slash :: r3) => option_map (fun '(ce, r4) => (Area rs cs re ce, r4)) (parse_line r3)
          | Some (re, r3) => Some (Area rs cs re (default_end cs), r3)
          end
      | Some (cs, r2) => Some (Area rs cs (default_end rs) (default_end cs), r2)
      end
  | Some (rs, r1) => let o := default_end rs in Some (Area rs o o o, r1)
  end.

(** ** Printers *)

(** Tokens and white space *)
Inductive piece := T (t : tok) | Sp.
Section Printer.
(** printer.rs [minify] *)
Variable minify : bool.
(** printer.rs [whitespace], [newline] (after [indent_by] or not) and [delim] *)
Definition space : list piece := if minify then [] else [Sp].
Definition slash : list piece := (space ++ [T Slash] ++ space)%list.

Definition length_tok (l : length) : tok := match l with Zero => Int 0 | Len n => Size n end.
(** grid.rs:289-302 *)
Definition breadth_tok (b : breadth) : tok :=
  match b with
  | BAuto => Word "auto" | MinContent => Word "min-content" | MaxContent => Word "max-content"
  | BLength l => length_tok l | BFlex q => Fr q
  end.
(** grid.rs:222-243; in a function, the pieces without the white space *)
Definition size_tok (s : size) : tok :=
  match s with
  | Breadth b => breadth_tok b
  | MinMax a b => Fun "minmax" [breadth_tok a; Comma; breadth_tok b]
  | Fit l => Fun "fit-content" [length_tok l]
  end.
(** grid.rs:381-396 *)
Definition names_tok (n : list string) : tok := Names (map Word n).
(** grid.rs:335-365 and 451-482: both loops *)
Fixpoint print_loop {A} (tok_of : A -> tok) (first : bool) (names : list (list string)) (items : list A) : list piece :=
  match names with
  | [] => []
  | n :: ns =>
      ((match n with [] => [] | _ => [T (names_tok n)] end)
      ++ match items with
         | i :: is => (match n with [] => if first then [] else [Sp] | _ => space end) ++ T (tok_of i) :: print_loop tok_of false ns is
         | [] => print_loop tok_of false ns []
         end)%list
  end.
Definition bare (l : list piece) : list tok := flat_map (fun p => match p with T t => [t] | Sp => [] end) l.
Definition count_tok (c : count) : tok := match c with Times z => Int z | AutoFill => Word "auto-fill" | AutoFit => Word "auto-fit" end.
Definition item_tok (i : item) : tok :=
  match i with
  | One s => size_tok s
  | Repeat c ns ss => Fun "repeat" (count_tok c :: Comma :: bare (print_loop size_tok true ns ss))
  end.
Definition print_tracks (t : tracks) : list piece := print_loop item_tok true (t_names t) (t_items t).
Definition print_sizing (s : sizing) : list piece := match s with NoTracks => [T (Word "none")] | Tracks t => print_tracks t end.
(** grid.rs:513-533 *)
Fixpoint spaced_out (l : list piece) : list piece := match l with [] => [] | [p] => [p] | p :: r => p :: Sp :: spaced_out r end.
Definition print_sizes (l : list size) : list piece :=
  match l with [] => [T (Word "auto")] | _ => spaced_out (map (fun s => T (size_tok s)) l) end.

(** grid.rs:664-704, one string; [i > 0] is [negb first] *)
Fixpoint row_text (first last_null : bool) (l : list cell) : string :=
  match l with
  | [] => ""
  | Some n :: r => (if negb first && (negb last_null || negb minify) then " " else "") ++ n ++ row_text false false r
  | None :: r => (if negb first && (last_null || negb minify) then " " else "") ++ "." ++ row_text false true r
  end.
(** The strings: [columns] cells each, grid.rs:638, 843; fuel for the cells *)
Fixpoint chunks (fuel columns : nat) (l : list cell) : list (list cell) :=
  match fuel, l with
  | S fuel, _ :: _ => firstn columns l :: chunks fuel columns (skipn columns l)
  | _, _ => []
  end.
Definition rows_of (columns : nat) (cells : list cell) : list (list cell) := chunks (List.length cells) columns cells.
Definition row_tok (l : list cell) : tok := Str (row_text true false l).
(** grid.rs:627-662 *)
Fixpoint broken (l : list piece) : list piece := match l with [] => [] | [p] => [p] | p :: r => (p :: space ++ broken r)%list end.
Definition print_areas (a : areas) : list piece :=
  match a with NoAreas => [T (Word "none")] | Areas c k => broken (map (fun r => T (row_tok r)) (rows_of c k)) end.

(** grid.rs:843-898 *)
Fixpoint print_rows (first : bool) (names : list (list string)) (items : list item) (rows : list (list cell)) : list piece :=
  match rows with
  | [] => match names with n :: _ => match n with [] => [] | _ => (space ++ [T (names_tok n)])%list end | [] => [] end
  | r :: rs =>
      let before :=
        match names with
        | n :: _ =>
            match n with
            | [] => if first then [] else space
            | [a; b] => if minify then [T (names_tok n)] else (space ++ T (names_tok [a]) :: space ++ T (names_tok [b]) :: space)%list
            | _ => ((if first then [] else space) ++ T (names_tok n) :: space)%list
            end
        | [] => if first then [] else space
        end in
      let after :=
        match items with
        | i :: _ => if match i with One s => is_auto s | _ => false end then [] else (space ++ [T (item_tok i)])%list
        | [] => []
        end in
      (before ++ T (row_tok r) :: after ++ print_rows false (List.tl names) (List.tl items) rs)%list
  end.
(** grid.rs:815-914; [None]: [unreachable!] *)
Definition print_template (t : template) : option (list piece) :=
  match p_areas t with
  | NoAreas =>
      match p_rows t, p_columns t with
      | NoTracks, NoTracks => Some [T (Word "none")]
      | r, c => Some (print_sizing r ++ slash ++ print_sizing c)%list
      end
  | Areas columns cells =>
      match p_rows t with
      | NoTracks => None
      | Tracks l =>
          if forallb explicit_item (firstn (List.length (rows_of columns cells)) (t_items l)) then
            Some (print_rows true (t_names l) (t_items l) (rows_of columns cells)
                  ++ match p_columns t with NoTracks => [] | Tracks c => space ++ T Slash :: space ++ print_tracks c end)%list
          else None
      end
  end.
(** grid.rs:1082-1105 *)
Definition print_flow (f : flow) : list piece :=
  match f with
  | Flow false false => [T (Word "row")]
  | Flow true false => [T (Word "column")]
  | Flow false true => if minify then [T (Word "dense")] else [T (Word "row"); Sp; T (Word "dense")]
  | Flow true true => [T (Word "column"); Sp; T (Word "dense")]
  end.
Definition no_tracks (s : sizing) : bool := match s with NoTracks => true | _ => false end.
Definition no_areas (a : areas) : bool := match a with NoAreas => true | _ => false end.
Definition no_sizes (l : list size) : bool := match l with [] => true | _ => false end.
Definition initial_flow (f : flow) : bool := negb (f_column f) && negb (f_dense f).
(** ["auto-flow"], then [dense] and sizes *)
Definition auto_flow_text (f : flow) (sizes : list size) : list piece :=
  (T (Word "auto-flow") :: (if f_dense f then [Sp; T (Word "dense")] else []) ++ (if no_sizes sizes then [] else Sp :: print_sizes sizes))%list.
(** grid.rs:1200-1289 *)
Definition print_grid (g : grid) : option (list piece) :=
  let 'Grid rows columns areas auto_rows auto_columns flow := g in
  let initial := no_sizes auto_rows && no_sizes auto_columns && initial_flow flow in
  if negb (no_areas areas) && no_tracks rows then Some (auto_flow_text flow auto_rows ++ slash ++ print_sizing columns)%list
  else if negb (no_areas areas) && no_tracks columns && f_column flow then Some (print_sizing rows ++ slash ++ auto_flow_text flow auto_columns)%list
  else if negb (no_areas areas) || (negb (no_tracks rows) && negb (no_tracks columns)) || (no_areas areas && initial) then
    if initial then print_template (Template rows columns areas) else None
  else if f_column flow then
    if negb (no_tracks columns) || negb (no_sizes auto_rows) then None
    else Some (print_sizing rows ++ slash ++ auto_flow_text flow auto_columns)%list
  else
    if negb (no_tracks rows) || negb (no_sizes auto_columns) then None
    else Some (auto_flow_text flow auto_rows ++ slash ++ print_sizing columns)%list.

(** grid.rs:1431-1463 *)
Definition print_line (l : line) : list piece :=
  match l with
  | LAuto => [T (Word "auto")]
  | LArea n => [T (Word n)]
  | LLine z n => (T (Int z) :: match n with Some n => [Sp; T (Word n)] | None => [] end)
  | LSpan z n =>
      (T (Word "span") :: Sp ::
       (match n with
        | None => [T (Int z)]
        | Some n => (if negb (Z.eqb z 1) then [T (Int z); Sp] else []) ++ [T (Word n)]
        end))%list
  end.
(** grid.rs:1474-1482 *)
Definition can_omit_end (a b : line) : bool :=
  match a with
  | LArea n => match b with LArea m => String.eqb m n | _ => false end
  | _ => match b with LAuto => true | _ => false end
  end.
(** grid.rs:1500-1513 *)
Definition print_pair (a b : line) : list piece :=
  (print_line a ++ if can_omit_end a b then [] else slash ++ print_line b)%list.
(** grid.rs:1609-1637 *)
Definition print_area (a : area) : list piece :=
  let 'Area rs cs re ce := a in
  let omit_ce := can_omit_end cs ce in
  let omit_re := omit_ce && can_omit_end rs re in
  let omit_cs := omit_re && can_omit_end rs cs in
  (print_line rs ++ (if omit_cs then [] else slash ++ print_line cs) ++ (if omit_re then [] else slash ++ print_line re)
   ++ (if omit_ce then [] else slash ++ print_line ce))%list.
End Printer.

(** ** Declarations and the handler *)

(** The property names, grid.rs:1881-1899 *)
Inductive prop :=
| GridTemplateRows | GridTemplateColumns | GridTemplateAreas | GridAutoRows | GridAutoColumns | GridAutoFlow
| GridTemplate | GridShorthand | GridRowStart | GridRowEnd | GridColumnStart | GridColumnEnd | GridRow | GridColumn | GridArea.
(** properties/mod.rs [Property], those of grids *)
Inductive decl :=
| DRows (s : sizing) | DColumns (s : sizing) | DAreas (a : areas) | DAutoRows (l : list size) | DAutoColumns (l : list size) | DFlow (f : flow)
| DTemplate (t : template) | DGrid (g : grid)
| DRowStart (l : line) | DRowEnd (l : line) | DColumnStart (l : line) | DColumnEnd (l : line)
| DRow (a b : line) | DColumn (a b : line) | DArea (a : area)
| DRaw (p : prop) (l : list tok).
Definition whole {A} (o : option (A * list tok)) : option A := match o with Some (a, []) => Some a | _ => None end.
(** properties/mod.rs:700-725: a value that is not read to its end stays as it is *)
Definition parse_decl (p : prop) (l : list tok) : decl :=
  let typed {A} (o : option (A * list tok)) (d : A -> decl) : decl := match whole o with Some a => d a | None => DRaw p l end in
  match p with
  | GridTemplateRows => typed (parse_sizing l) DRows
  | GridTemplateColumns => typed (parse_sizing l) DColumns
  | GridTemplateAreas => typed (parse_areas l) DAreas
  | GridAutoRows => typed (Some (parse_sizes l)) DAutoRows
  | GridAutoColumns => typed (Some (parse_sizes l)) DAutoColumns
  | GridAutoFlow => typed (parse_flow l) DFlow
  | GridTemplate => typed (parse_template l) DTemplate
  | GridShorthand => typed (parse_grid l) DGrid
  | GridRowStart => typed (parse_line l) DRowStart
  | GridRowEnd => typed (parse_line l) DRowEnd
  | GridColumnStart => typed (parse_line l) DColumnStart
  | GridColumnEnd => typed (parse_line l) DColumnEnd
  | GridRow => typed (parse_pair l) (fun '(a, b) => DRow a b)
  | GridColumn => typed (parse_pair l) (fun '(a, b) => DColumn a b)
  | GridArea => typed (parse_area l) DArea
  end.
(** [Property::to_css]: the name and the value; [None]: [unreachable!].  A value that was not read is printed as
    its tokens (C69). *)
Definition print_decl (minify : bool) (d : decl) : option (prop * list piece) :=
  match d with
  | DRows s => Some (GridTemplateRows, print_sizing minify s)
  | DColumns s => Some (GridTemplateColumns, print_sizing minify s)
  | DAreas a => Some (GridTemplateAreas, print_areas minify a)
  | DAutoRows l => Some (GridAutoRows, print_sizes l)
  | DAutoColumns l => Some (GridAutoColumns, print_sizes l)
  | DFlow f => Some (GridAutoFlow, print_flow minify f)
  | DTemplate t => option_map (pair GridTemplate) (print_template minify t)
  | DGrid g => option_map (pair GridShorthand) (print_grid minify g)
  | DRowStart l => Some (GridRowStart, print_line l)
  | DRowEnd l => Some (GridRowEnd, print_line l)
  | DColumnStart l => Some (GridColumnStart, print_line l)
  | DColumnEnd l => Some (GridColumnEnd, print_line l)
  | DRow a b => Some (GridRow, print_pair minify a b)
  | DColumn a b => Some (GridColumn, print_pair minify a b)
  | DArea a => Some (GridArea, print_area minify a)
  | DRaw p l => Some (p, spaced_out (map T l))
  end.

(** grid.rs:1640-1652, without [has_any]: with no value at all [finalize] does nothing *)
Record handler := Handler {
  h_rows : option sizing; h_columns : option sizing; h_areas : option areas;
  h_auto_rows : option (list size); h_auto_columns : option (list size); h_flow : option flow;
  h_row_start : option line; h_column_start : option line; h_row_end : option line; h_column_end : option line
}.
Definition no_values : handler := Handler None None None None None None None None None None.
(** grid.rs:916-924 *)
Definition template_valid (rows columns : sizing) (a : areas) : bool :=
  no_areas a || (negb (no_tracks rows) && explicit_sizing rows && explicit_sizing columns).
(** grid.rs:1291-1328 *)
Definition grid_valid (rows columns : sizing) (a : areas) (auto_rows auto_columns : list size) (f : flow) : bool :=
  if negb (no_areas a) && no_tracks rows then negb (f_column f)
  else
    let is_template := template_valid rows columns a in
    let is_explicit := no_sizes auto_rows && no_sizes auto_columns && initial_flow f in
    let is_auto_rows := negb (f_column f) && no_tracks rows && no_sizes auto_columns in
    let is_auto_columns := f_column f && no_tracks columns && no_sizes auto_rows in
    (is_template && is_explicit) || is_auto_rows || is_auto_columns.
(** grid.rs:1853-1877; [None]: division by zero *)
Definition pad (rows : sizing) (a : areas) : option areas :=
  match rows, a with
  | Tracks t, Areas columns cells =>
      if Nat.eqb columns 0 then None
      else
        let rows_count := List.length (t_items t) in
        let areas_count := Nat.div (List.length cells) columns in
        if Nat.ltb areas_count rows_count then Some (Areas columns (cells ++ repeat None ((rows_count - areas_count) * columns))%list)
        else Some a
  | _, _ => Some a
  end.
Definition opt {A} (o : option A) (d : A -> decl) : list decl := match o with Some a => [d a] | None => [] end.
(** grid.rs:1730-1801: what is pushed, whether the three of the template and the three automatic ones are used up *)
Definition flush_template (h : handler) : option (list decl * bool * bool) :=
  match h_rows h, h_columns h, h_areas h with
  | Some rows, Some columns, Some a =>
      let as_template :=
        if template_valid rows columns a then option_map (fun a' => ([DTemplate (Template rows columns a')], true, false)) (pad rows a)
        else Some ([], false, false) in
      match h_auto_rows h, h_auto_columns h, h_flow h with
      | Some auto_rows, Some auto_columns, Some f =>
          if grid_valid rows columns a auto_rows auto_columns f then
            let separate := negb (no_areas a) && ((no_tracks rows && negb (f_column f)) || (no_tracks columns && f_column f)) in
            if separate then Some ([DGrid (Grid rows columns a auto_rows auto_columns f); DAreas a], true, true)
            else option_map (fun a' => ([DGrid (Grid rows columns a' auto_rows auto_columns f)], true, true)) (pad rows a)
          else as_template
      | _, _, _ => as_template
      end
  | _, _, _ => Some ([], false, false)
  end.
(** grid.rs:1803-1824, 1840-1843 *)
Definition flush_lines (h : handler) : list decl * list decl :=
  match h_row_start h, h_column_start h, h_row_end h, h_column_end h with
  | Some rs, Some cs, Some re, Some ce => ([DArea (Area rs cs re ce)], [])
  | rs, cs, re, ce =>
      let (r1, r2) := match rs, re with Some a, Some b => ([DRow a b], []) | _, _ => ([], (opt rs DRowStart ++ opt re DRowEnd)%list) end in
      let (c1, c2) := match cs, ce with Some a, Some b => ([DColumn a b], []) | _, _ => ([], (opt cs DColumnStart ++ opt ce DColumnEnd)%list) end in
      (r1 ++ c1, r2 ++ c2)%list
  end.
(** grid.rs:1712-1844 *)
Definition flush (h : handler) : option (list decl) :=
  match flush_template h with
  | None => None
  | Some (out, template_used, auto_used) =>
      let (lines, singles) := flush_lines h in
      let keep {A} (used : bool) (o : option A) := if used then None else o in
      Some (out ++ lines
        ++ opt (keep template_used (h_rows h)) DRows ++ opt (keep template_used (h_columns h)) DColumns ++ opt (keep template_used (h_areas h)) DAreas
        ++ opt (keep auto_used (h_auto_rows h)) DAutoRows ++ opt (keep auto_used (h_auto_columns h)) DAutoColumns ++ opt (keep auto_used (h_flow h)) DFlow
        ++ singles)%list
  end.
(** grid.rs:1655-1710: the next state and what is pushed *)
Definition handle (h : handler) (d : decl) : option (handler * list decl) :=
  let 'Handler ro co ar au ac fl rs cs re ce := h in
  match d with
  | DColumns v => Some (Handler ro (Some v) ar au ac fl rs cs re ce, [])
  | DRows v => Some (Handler (Some v) co ar au ac fl rs cs re ce, [])
  | DAreas v => Some (Handler ro co (Some v) au ac fl rs cs re ce, [])
  | DAutoColumns v => Some (Handler ro co ar au (Some v) fl rs cs re ce, [])
  | DAutoRows v => Some (Handler ro co ar (Some v) ac fl rs cs re ce, [])
  | DFlow v => Some (Handler ro co ar au ac (Some v) rs cs re ce, [])
  | DTemplate t => Some (Handler (Some (p_rows t)) (Some (p_columns t)) (Some (p_areas t)) au ac fl rs cs re ce, [])
  | DGrid g =>
      Some (Handler (Some (g_rows g)) (Some (g_columns g)) (Some (g_areas g)) (Some (g_auto_rows g)) (Some (g_auto_columns g)) (Some (g_flow g)) rs cs re ce, [])
  | DRowStart v => Some (Handler ro co ar au ac fl (Some v) cs re ce, [])
  | DRowEnd v => Some (Handler ro co ar au ac fl rs cs (Some v) ce, [])
  | DColumnStart v => Some (Handler ro co ar au ac fl rs (Some v) re ce, [])
  | DColumnEnd v => Some (Handler ro co ar au ac fl rs cs re (Some v), [])
  | DRow a b => Some (Handler ro co ar au ac fl (Some a) cs (Some b) ce, [])
  | DColumn a b => Some (Handler ro co ar au ac fl rs (Some a) re (Some b), [])
  | DArea a => Some (Handler ro co ar au ac fl (Some (a_row_start a)) (Some (a_column_start a)) (Some (a_row_end a)) (Some (a_column_end a)), [])
  | DRaw _ _ => option_map (fun out => (no_values, (out ++ [d])%list)) (flush h)
  end.
Fixpoint run (h : handler) (l : list decl) : option (list decl) :=
  match l with
  | [] => flush h
  | d :: r =>
      match handle h d with
      | Some (h', out) => option_map (fun rest => (out ++ rest)%list) (run h' r)
      | None => None
      end
  end.
Fixpoint all_some {A} (l : list (option A)) : option (list A) :=
  match l with [] => Some [] | Some a :: r => option_map (cons a) (all_some r) | None :: _ => None end.
(** A block of grid declarations, minified and printed; [None] is a panic *)
Definition process (minify : bool) (l : list (prop * list tok)) : option (list (prop * list piece)) :=
  match run no_values (map (fun '(p, v) => parse_decl p v) l) with
  | Some out => all_some (map (print_decl minify) out)
  | None => None
  end.
