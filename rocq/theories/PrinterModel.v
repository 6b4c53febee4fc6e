(** Model of the printer, /repo/src/printer.rs, with the CSS modules state of
    /repo/src/css_modules.rs and the places that print names. *)
From Coq Require Import List Bool String Ascii PeanoNat NArith.
From Verif Require Import MediaModel IdentModel PatternModel.
Import ListNotations.
Local Open Scope nat_scope.
Local Open Scope bool_scope.
Local Open Scope list_scope.
Local Open Scope string_scope.

(** * CSS modules state *)

(** [CssModuleReference], css_modules.rs:213-240. *)
Inductive reference :=
  | RLocal (name : string)
  | RGlobal (name : string)
  | RDependency (name specifier : string).
Definition reference_dec (x y : reference) : {x = y} + {x <> y}.
Proof. decide equality; apply string_dec. Defined.
Definition reference_eqb (x y : reference) : bool := if reference_dec x y then true else false.

(** [CssModuleExport], css_modules.rs:243-253. *)
Record export := mkexport { ex_name : string; ex_composes : list reference; ex_referenced : bool }.

(** [Specifier], properties/css_modules.rs:47-57. *)
Inductive specifier := SpGlobal | SpFile (file : string) | SpIndex (i : nat).

(** [Config], css_modules.rs:30-50. *)
Record config := mkconfig {
  cf_pattern : list segment;
  cf_dashed : bool;
  cf_animation : bool;
  cf_grid : bool;
  cf_custom : bool;
  cf_container : bool }.

(** A source file: the path that is hashed (already relative to the project
    root), its stem, and its content hash ([""] when content hashes are off). *)
Record source := mksource { so_path : string; so_stem : string; so_content : string }.

(** [exports_by_source_index], css_modules.rs:279: one map keyed by source and
    name instead of a vector of maps. *)
Definition key : Type := nat * string.
Definition key_eqb (x y : key) : bool := Nat.eqb (fst x) (fst y) && String.eqb (snd x) (snd y).
Definition exports := list (key * export).
Fixpoint ex_get (m : exports) (k : key) : option export :=
  match m with
  | [] => None
  | (k', e) :: r => if key_eqb k' k then Some e else ex_get r k
  end.
(** Replace the value of a key that is present, or add it. *)
Fixpoint ex_set (m : exports) (k : key) (e : export) : exports :=
  match m with
  | [] => [(k, e)]
  | (k', e') :: r => if key_eqb k' k then (k', e) :: r else (k', e') :: ex_set r k e
  end.

(** [references], css_modules.rs:280. *)
Definition references := list (string * reference).
Fixpoint ref_get (m : references) (k : string) : option reference :=
  match m with
  | [] => None
  | (k', r) :: m' => if String.eqb k' k then Some r else ref_get m' k
  end.

(** * The printer *)

(** [Location], rules/mod.rs. *)
Record location := mkloc { l_source : nat; l_line : N; l_column : N }.

(** A source map entry: generated line and column, and the original. *)
Record mapping := mkmap { m_line : N; m_col : N; m_original : location }.

(** [Printer], printer.rs:68-93: the fields the printing functions below
    change.  [line] and [col] are 32-bit there; unbounded here. *)
Record printer := mkprinter {
  p_out : string;
  p_line : N;
  p_col : N;
  p_indent : N;
  p_loc : location;
  p_maps : list mapping;
  p_exports : exports;
  p_refs : references }.

(** [Printer::new], printer.rs:97-131. *)
Definition new_printer : printer := mkprinter "" 0 0 0 (mkloc 0 0 1) [] [] [].

(** How a printing function ends.  Arithmetic overflow of the 8-bit indent is
    a panic (it wraps when overflow checks are off). *)
Inductive outcome := Fine (p : printer) | Failed | Panicked.
Definition andthen (o : outcome) (f : printer -> outcome) : outcome :=
  match o with Fine p => f p | Failed => Failed | Panicked => Panicked end.

Definition set_pos (p : printer) (out : string) (line col : N) : printer :=
  mkprinter out line col (p_indent p) (p_loc p) (p_maps p) (p_exports p) (p_refs p).
Definition set_indent (p : printer) (i : N) : printer :=
  mkprinter (p_out p) (p_line p) (p_col p) i (p_loc p) (p_maps p) (p_exports p) (p_refs p).
Definition set_exports (p : printer) (e : exports) : printer :=
  mkprinter (p_out p) (p_line p) (p_col p) (p_indent p) (p_loc p) (p_maps p) e (p_refs p).
Definition set_refs (p : printer) (r : references) : printer :=
  mkprinter (p_out p) (p_line p) (p_col p) (p_indent p) (p_loc p) (p_maps p) (p_exports p) r.

Definition len (s : string) : N := N.of_nat (String.length s).

(** [write_str], printer.rs:146-150, and the [fmt::Write] impl,
    printer.rs:416-421. *)
Definition write_str (s : string) (p : printer) : printer :=
  set_pos p (p_out p ++ s) (p_line p) (p_col p + len s).

(** The loop of [write_str_with_newlines], printer.rs:153-170: the position
    after each byte ([char_indices] only looks for line feeds), and the index
    where the last line starts. *)
Fixpoint count_lines (s : string) (idx : nat) (line col : N) (last : nat) : N * N * nat :=
  match s with
  | "" => (line, col, last)
  | String c r =>
      if Ascii.eqb c lf then count_lines r (S idx) (line + 1) 0 (S idx)
      else count_lines r (S idx) line col last
  end.
Definition write_str_with_newlines (s : string) (p : printer) : printer :=
  let '(line, col, last) := count_lines s 0 (p_line p) (p_col p) 0 in
  set_pos p (p_out p ++ s) line (col + (len s - N.of_nat last)).

(** [write_char], printer.rs:173-183; the character is given by its bytes. *)
Definition write_char (c : string) (p : printer) : printer :=
  if String.eqb c (one lf) then set_pos p (p_out p ++ c) (p_line p + 1) 0
  else set_pos p (p_out p ++ c) (p_line p) (p_col p + 1).

Fixpoint spaces (n : nat) : string :=
  match n with 0 => "" | S n' => String space (spaces n') end.

Section Printer.

(** [DefaultHasher] of the standard library, truncated to 32 bits. *)
Variable hash32 : string -> N.
(** [PrinterOptions::minify]. *)
Variable minify : bool.
(** The [css_modules] option and the sources. *)
Variable modules : option (config * list source).
(** The input source maps: [None] for a source without one; otherwise what
    [find_closest_mapping] finds (printer.rs:258-284). *)
Variable remap : location -> option (option location).

(** [whitespace], printer.rs:189-195. *)
Definition whitespace (p : printer) : printer := if minify then p else write_char (one space) p.

(** [delim], printer.rs:199-205. *)
Definition delim (c : string) (before : bool) (p : printer) : printer :=
  whitespace (write_char c (if before then whitespace p else p)).

(** [newline], printer.rs:209-220. *)
Definition newline (p : printer) : printer :=
  if minify then p
  else
    let p1 := write_char (one lf) p in
    if N.ltb 0 (p_indent p1) then write_str (spaces (N.to_nat (p_indent p1))) p1 else p1.

(** [indent_by] and [dedent_by], printer.rs:233-240; [indent] and [dedent]
    (:223-230) are the case of two. *)
Definition indent_by (n : N) (p : printer) : outcome :=
  if N.leb (p_indent p + n) 255 then Fine (set_indent p (p_indent p + n)) else Panicked.
Definition dedent_by (n : N) (p : printer) : outcome :=
  if N.leb n (p_indent p) then Fine (set_indent p (p_indent p - n)) else Panicked.

(** [add_mapping], printer.rs:248-290, with a source map.  Names and the
    contents of remapped sources are left out. *)
Definition add_mapping (loc : location) (p : printer) : outcome :=
  let p1 := mkprinter (p_out p) (p_line p) (p_col p) (p_indent p) loc (p_maps p) (p_exports p) (p_refs p) in
  let add original :=
    Fine (mkprinter (p_out p) (p_line p) (p_col p) (p_indent p) loc
            (p_maps p ++ [mkmap (p_line p) (p_col p) original])%list (p_exports p) (p_refs p)) in
  if N.eqb (l_column loc) 0 then Panicked
  else
    match remap loc with
    | None => add (mkloc (l_source loc) (l_line loc) (l_column loc - 1))
    | Some (Some original) => add original
    | Some None => Fine p1
    end.

(** * Names *)

(** The pieces written for a local name of source [i], printer.rs:296-305 and
    css_modules.rs:315-335; [None] is an index out of range or an empty
    pattern. *)
Definition pieces (cs : config * list source) (i : nat) (local : string) : option (list string) :=
  match nth_error (snd cs) i, hash_at_start (cf_pattern (fst cs)) with
  | Some so, Some at_start =>
      Some (pattern_write (cf_pattern (fst cs)) (hash_text (hash32 (so_path so)) at_start)
              (so_stem so) local (so_content so))
  | _, _ => None
  end.
Definition scoped_name (cs : config * list source) (res : string) (i : nat) (local : string) : option string :=
  option_map (fun l => fold_left append l res) (pieces cs i local).

(** [entry(..).or_insert_with(..)] of [add_local] and [add_dashed],
    css_modules.rs:315-362, with the prefix of the name and the part of the
    name the pattern is applied to. *)
Definition add_entry (cs : config * list source) (exported res local : string) (i : nat)
    (p : printer) : outcome :=
  match ex_get (p_exports p) (i, exported) with
  | Some _ => Fine p
  | None =>
      match scoped_name cs res i local with
      | None => Panicked
      | Some n => Fine (set_exports p (ex_set (p_exports p) (i, exported) (mkexport n [] false)))
      end
  end.

(** [&ident[2..]]; the caller only has dashed names. *)
Definition undash (s : string) : string := str_drop 2 s.

(** [add_local] and [add_dashed]. *)
Definition add_local cs (exported local : string) i p := add_entry cs exported "" local i p.
Definition add_dashed cs (local : string) i p := add_entry cs local "--" (undash local) i p.

(** [reference], css_modules.rs:364-394, and the local case of
    [reference_dashed], css_modules.rs:425-455. *)
Definition mark (cs : config * list source) (exported res local : string) (i : nat)
    (p : printer) : outcome :=
  match ex_get (p_exports p) (i, exported) with
  | Some e => Fine (set_exports p (ex_set (p_exports p) (i, exported) (mkexport (ex_name e) (ex_composes e) true)))
  | None =>
      match scoped_name cs res i local with
      | None => Panicked
      | Some n => Fine (set_exports p (ex_set (p_exports p) (i, exported) (mkexport n [] true)))
      end
  end.
Definition reference_local cs (name : string) i p := mark cs name "" name i p.

(** The pieces of a name are escaped one by one; the column counts the
    unescaped bytes, printer.rs:306-315 and :336-339. *)
Fixpoint write_pieces (first : bool) (l : list string) (p : printer) : printer :=
  match l with
  | [] => p
  | s :: r =>
      write_pieces false r
        (set_pos p (p_out p ++ (if first then ser_ident s else ser_name s)) (p_line p) (p_col p + len s))
  end.

(** [write_ident], printer.rs:290-321. *)
Definition write_ident (ident : string) (handle : bool) (p : printer) : outcome :=
  match (if handle then modules else None) with
  | Some cs =>
      match pieces cs (l_source (p_loc p)) ident with
      | None => Panicked
      | Some l => add_local cs ident ident (l_source (p_loc p)) (write_pieces true l p)
      end
  | None => Fine (write_str (ser_ident ident) p)
  end.

(** [write_dashed_ident], printer.rs:323-361. *)
Definition write_dashed_ident (ident : string) (is_declaration : bool) (p : printer) : outcome :=
  let p1 := write_str "--" p in
  match modules with
  | Some cs =>
      if cf_dashed (fst cs) then
        match pieces cs (l_source (p_loc p)) (undash ident) with
        | None => Panicked
        | Some l =>
            let p2 := write_pieces false l p1 in
            if is_declaration then add_dashed cs ident (l_source (p_loc p)) p2 else Fine p2
        end
      else Fine (write_str (ser_name (undash ident)) p1)
  | None => Fine (write_str (ser_name (undash ident)) p1)
  end.

(** [DashedIdentReference::to_css], values/ident.rs:230-250, with
    [reference_dashed], css_modules.rs:396-461. *)
Definition write_dashed_reference (ident : string) (from : option specifier) (p : printer) : outcome :=
  match modules with
  | Some cs =>
      if cf_dashed (fst cs) then
        let i := l_source (p_loc p) in
        match from with
        | Some SpGlobal => Fine (write_str (ser_name (undash ident)) (write_str "--" p))
        | Some (SpIndex j) =>
            match scoped_name cs "" j (undash ident) with
            | None => Panicked
            | Some n => Fine (write_str (ser_name n) (write_str "--" p))
            end
        | Some (SpFile file) =>
            match nth_error (snd cs) i, hash_at_start (cf_pattern (fst cs)) with
            | Some so, Some at_start =>
                let h := hash_text (hash32 (hash_text (hash32 (so_path so)) at_start
                                            ++ "_" ++ ident ++ "_" ++ file)) false in
                let p1 := set_refs p (cons (append "--" h, RDependency ident file) (p_refs p)) in
                Fine (write_str (ser_name h) (write_str "--" p1))
            | _, _ => Panicked
            end
        | None => andthen (mark cs ident "--" (undash ident) i p) (write_dashed_ident ident false)
        end
      else write_dashed_ident ident false p
  | None => write_dashed_ident ident false p
  end.

(** * The places that print names *)

Inductive site :=
  | ClassName | IdName | KeyframesIdent | KeyframesString | AnimationIdent | AnimationString
  | CounterStyle | GridName | ContainerName | OtherCustomIdent.

Definition flag (f : config -> bool) : bool :=
  match modules with Some (c, _) => f c | None => false end.

(** [CustomIdent::to_css_with_options], values/ident.rs:56-73. *)
Definition write_custom (s : string) (enabled : bool) (p : printer) : outcome :=
  write_ident s (enabled && flag cf_custom) p.

(** The keywords that keep their quotes, rules/keyframes.rs:106,
    properties/animation.rs:75. *)
Definition keeps_quotes (s : string) : bool :=
  existsb (ieq s) ["none"; "initial"; "inherit"; "unset"; "default"; "revert"; "revert-layer"].

(** [serialize_string] on such a keyword. *)
Definition quoted (s : string) : string := String (ch 34) (s ++ one (ch 34)).

Definition mark_if (b : bool) (s : string) (p : printer) : outcome :=
  match (if b then modules else None) with
  | Some cs => reference_local cs s (l_source (p_loc p)) p
  | None => Fine p
  end.

(** Selectors, selector.rs:1659-1667; [KeyframesName::to_css],
    rules/keyframes.rs:90-117; [AnimationName::to_css],
    properties/animation.rs:49-86; [CounterStyle::to_css],
    properties/list.rs:219-227; [write_ident], properties/grid.rs:398-421;
    [ContainerName::to_css], rules/container.rs:446-459; [CustomIdent::to_css]
    elsewhere. *)
Definition write_site (k : site) (s : string) (p : printer) : outcome :=
  match k with
  | ClassName => write_ident s true (write_char (one (ch 46)) p)
  | IdName => write_ident s true (write_char (one (ch 35)) p)
  | KeyframesIdent => write_ident s (flag cf_animation) p
  | KeyframesString =>
      if keeps_quotes s then Fine (write_str (quoted s) p) else write_ident s (flag cf_animation) p
  | AnimationIdent =>
      andthen (mark_if (flag cf_animation) s p) (write_custom s (flag cf_animation))
  | AnimationString =>
      andthen (mark_if (flag cf_animation) s p)
        (fun p1 => if keeps_quotes s then Fine (write_str (quoted s) p1)
                   else write_ident s (flag cf_animation) p1)
  | CounterStyle => andthen (mark_if true s p) (write_custom s true)
  | GridName =>
      if flag cf_grid
         && match modules with
            | Some (c, _) => match last (cf_pattern c) SLocal with SLocal => false | _ => true end
            | None => false
            end
      then Failed
      else write_ident s (flag cf_grid) p
  | ContainerName => write_custom s (flag cf_container) p
  | OtherCustomIdent => write_custom s true p
  end.

(** * composes *)

(** One name of a [composes] declaration for the class [id],
    css_modules.rs:471-519. *)
Definition compose_one (cs : config * list source) (i : nat) (from : option specifier)
    (id name : string) (p : printer) : outcome :=
  let push r :=
    match ex_get (p_exports p) (i, id) with
    | None => Panicked
    | Some e =>
        if existsb (reference_eqb r) (ex_composes e) then Fine p
        else Fine (set_exports p (ex_set (p_exports p) (i, id)
                     (mkexport (ex_name e) (ex_composes e ++ [r])%list (ex_referenced e))))
    end in
  match from with
  | None =>
      match scoped_name cs "" i name with
      | None => Panicked
      | Some n => push (RLocal n)
      end
  | Some (SpIndex j) =>
      match ex_get (p_exports p) (j, name) with
      | None => Fine p
      | Some d =>
          match ex_get (p_exports p) (i, id) with
          | None => Panicked
          | Some e =>
              Fine (set_exports p (ex_set (p_exports p) (i, id)
                (mkexport (ex_name e) (ex_composes e ++ RLocal (ex_name d) :: ex_composes d)%list
                          (ex_referenced e))))
          end
      end
  | Some SpGlobal => push (RGlobal name)
  | Some (SpFile file) => push (RDependency name file)
  end.

Fixpoint compose_names cs i from id (names : list string) (p : printer) : outcome :=
  match names with
  | [] => Fine p
  | n :: r => andthen (compose_one cs i from id n p) (compose_names cs i from id r)
  end.

(** [handle_composes], css_modules.rs:463-532.  A selector is the class it
    consists of, or [None] when it is anything else. *)
Fixpoint handle_composes cs i from (selectors : list (option string)) (names : list string)
    (p : printer) : outcome :=
  match selectors with
  | [] => Fine p
  | Some id :: r => andthen (compose_names cs i from id names p) (handle_composes cs i from r names)
  | None :: _ => Failed
  end.

(** The [composes] case of [to_css_declarations], declaration.rs:203-216;
    without CSS modules the property is printed like any other. *)
Definition write_composes (selectors : list (option string)) (names : list string)
    (from : option specifier) (i : nat) (p : printer) : outcome :=
  match modules with
  | None => Fine p
  | Some cs => if N.ltb 2 (p_indent p) then Failed else handle_composes cs i from selectors names p
  end.

(** * A run of the printer *)

Inductive op :=
  | WriteStr (s : string)
  | WriteLines (s : string)
  | WriteChar (c : string)
  | Whitespace
  | Delim (c : string) (before : bool)
  | Newline
  | Indent (n : N)
  | Dedent (n : N)
  | AddMapping (loc : location)
  | Site (k : site) (s : string)
  | Dashed (s : string)
  | DashedRef (s : string) (from : option specifier)
  | Compose (selectors : list (option string)) (names : list string) (from : option specifier) (i : nat).

Definition run_op (o : op) (p : printer) : outcome :=
  match o with
  | WriteStr s => Fine (write_str s p)
  | WriteLines s => Fine (write_str_with_newlines s p)
  | WriteChar c => Fine (write_char c p)
  | Whitespace => Fine (whitespace p)
  | Delim c b => Fine (delim c b p)
  | Newline => Fine (newline p)
  | Indent n => indent_by n p
  | Dedent n => dedent_by n p
  | AddMapping l => add_mapping l p
  | Site k s => write_site k s p
  | Dashed s => write_dashed_ident s true p
  | DashedRef s f => write_dashed_reference s f p
  | Compose sels names f i => write_composes sels names f i p
  end.

Fixpoint run (l : list op) (p : printer) : outcome :=
  match l with
  | [] => Fine p
  | o :: r => andthen (run_op o p) (run r)
  end.

End Printer.
