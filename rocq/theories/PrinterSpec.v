(** What the printer's output and the export map should be, in terms of the
    text and of the sequence of print operations. *)
From Coq Require Import List Bool String Ascii PeanoNat NArith.
From Verif Require Import IdentModel IdentSpec PatternModel PatternSpec PrinterModel.
Import ListNotations.
Local Open Scope nat_scope.
Local Open Scope bool_scope.
Local Open Scope list_scope.
Local Open Scope string_scope.

(** * Positions *)

(** The line and the column at the end of a text: line feeds in it, and bytes
    after the last of them. *)
Fixpoint lines (s : string) : N :=
  match s with
  | "" => 0
  | String c r => ((if Nat.eqb (nat_of_ascii c) 10 then 1 else 0) + lines r)%N
  end.
Fixpoint last_line (s : string) : string :=
  match s with
  | "" => ""
  | String c r =>
      if occurs (ascii_of_nat 10) r then last_line r
      else if Nat.eqb (nat_of_ascii c) 10 then r else s
  end.
Definition column (s : string) : N := N.of_nat (String.length (last_line s)).

Fixpoint all_chars (f : ascii -> bool) (s : string) : bool :=
  match s with "" => true | String c r => f c && all_chars f r end.

(** A list of pieces that form an identifier without any escape. *)
Definition needs_no_escape (l : list string) : bool :=
  match l with
  | [] => true
  | s :: r => starts_ident s && all_chars name_char s && forallb (all_chars name_char) r
  end.
Definition continues_unescaped (l : list string) : bool := forallb (all_chars name_char) l.

(** The text before each mapping and the original position it should have. *)
Definition original (remap : location -> option (option location)) (loc : location) : option location :=
  match remap loc with
  | None => Some (mkloc (l_source loc) (l_line loc) (l_column loc - 1))
  | Some o => o
  end.
Fixpoint marks (remap : location -> option (option location)) (done l : list op) : list (list op * location) :=
  match l with
  | [] => []
  | AddMapping loc :: r =>
      match original remap loc with
      | Some o => (done, o) :: marks remap (done ++ [AddMapping loc])%list r
      | None => marks remap (done ++ [AddMapping loc])%list r
      end
  | o :: r => marks remap (done ++ [o])%list r
  end.

Section Tidy.
Variable hash32 : string -> N.
Variable minify : bool.
Variable modules : option (config * list source).
Variable remap : location -> option (option location).

(** No name of this operation needs escapes when CSS modules rename it. *)
Definition plain_for (first : bool) (s : string) : Prop :=
  match modules with
  | None => True
  | Some cs => forall i l, pieces hash32 cs i s = Some l ->
      if first then needs_no_escape l = true else continues_unescaped l = true
  end.

(** Texts have no line feed, characters are one byte, and renamed names need no
    escape. *)
Definition tidy (o : op) : Prop :=
  match o with
  | WriteStr s => occurs lf s = false
  | WriteChar c | Delim c _ => String.length c = 1
  | Site _ s => plain_for true s
  | Dashed s => plain_for false (undash s)
  | DashedRef s _ => plain_for false (undash s)
  | _ => True
  end.

(** The mapping to [i] at the end of what [l] prints. *)
Definition maps_of (l : list op) (i : location) : mapping :=
  match run hash32 minify modules remap l new_printer with
  | Fine p => mkmap (lines (p_out p)) (column (p_out p)) i
  | _ => mkmap 0 0 i
  end.

End Tidy.

(** * Layout *)

(** [big] is [small] with some spaces and line feeds added. *)
Inductive inserted : string -> string -> Prop :=
  | ins_nil : inserted "" ""
  | ins_same : forall c s b, inserted s b -> inserted (String c s) (String c b)
  | ins_blank : forall n s b, n = 10 \/ n = 32 -> inserted s b -> inserted s (String (ascii_of_nat n) b).

Definition layout_op (o : op) : bool :=
  match o with Whitespace | Delim _ _ | Newline => true | _ => false end.

(** Nested blocks: [Nest] is one more level of indentation. *)
Inductive block := Leaf (o : op) | Nest (l : list block).
Fixpoint flatten (b : block) : list op :=
  match b with
  | Leaf o => [o]
  | Nest l => (Indent 2 :: fold_right (fun x r => flatten x ++ r) [] l ++ [Dedent 2])%list
  end.
Fixpoint depth (b : block) : nat :=
  match b with
  | Leaf _ => 0
  | Nest l => S (fold_right (fun x n => Nat.max (depth x) n) 0 l)
  end.
(** Blocks whose leaves cannot fail on their own. *)
Definition writes (o : op) : bool :=
  match o with WriteStr _ | WriteLines _ | WriteChar _ | Whitespace | Delim _ _ | Newline => true | _ => false end.
Fixpoint writing (b : block) : bool :=
  match b with
  | Leaf o => writes o
  | Nest l => forallb writing l
  end.

(** * Names *)

Definition dashed (s : string) : bool :=
  match s with String a (String b _) => is_dash a && is_dash b | _ => false end.
(** The name after its two dashes. *)
Definition rest_of (s : string) : string :=
  match s with String _ (String _ r) => r | _ => "" end.

(** The source of the operation after [l]: that of the last rule started. *)
Fixpoint source_after (l : list op) (i : nat) : nat :=
  match l with
  | [] => i
  | AddMapping loc :: r => source_after r (l_source loc)
  | _ :: r => source_after r i
  end.

(** A CSS modules configuration: the text of its pattern and its sources. *)
Section Names.
Variable hash32 : string -> N.
Variable pat : string.
Variable sources : list source.

Definition begins_with_hash : bool := String.prefix "[hash]" pat.

(** [scoped i s n]: in source [i] the pattern gives the local name [s] the
    name [n]. *)
Definition scoped (i : nat) (s n : string) : Prop :=
  exists so, nth_error sources i = Some so /\
    filled (values (hash_text (hash32 (so_path so)) begins_with_hash) (so_stem so) s (so_content so)) pat n.

(** The name under which [s] is exported: custom property names keep their
    dashes. *)
Definition public (i : nat) (s n : string) : Prop :=
  if dashed s then exists m, scoped i (rest_of s) m /\ n = "--" ++ m else scoped i s n.

End Names.

Definition nonempty_nonul (s : string) : bool := negb (String.eqb s "") && no_nul s.

(** Names that are ordinary for their place: local names are not dashed,
    custom property names are, and strings are not the keywords that stay
    quoted. *)
Definition ordinary (o : op) : bool :=
  match o with
  | Site k s =>
      negb (dashed s) && nonempty_nonul s
      && match k with KeyframesString | AnimationString => negb (keeps_quotes s) | _ => true end
  | Dashed s => dashed s && no_nul s
  | DashedRef s _ => dashed s && no_nul s
  | Compose sels names _ _ =>
      forallb (fun x => match x with Some s => negb (dashed s) | None => true end) sels
      && forallb (fun s => negb (dashed s)) names
  | _ => true
  end.

(** Does the operation export [s]?  ([with_dashed] is the option for custom
    properties.) *)
Definition exporting (with_dashed : bool) (o : op) : option string :=
  match o with
  | Site _ s => Some s
  | Dashed s => if with_dashed then Some s else None
  | DashedRef s None => if with_dashed then Some s else None
  | _ => None
  end.
(** Does it count as a reference to [s]? *)
Definition referring (with_dashed : bool) (o : op) : option string :=
  match o with
  | Site AnimationIdent s | Site AnimationString s | Site CounterStyle s => Some s
  | DashedRef s None => if with_dashed then Some s else None
  | _ => None
  end.

(** The character printed before a name. *)
Definition sigil (k : site) : string :=
  match k with ClassName => "." | IdName => "#" | _ => "" end.

Definition all_on (c : config) : Prop :=
  cf_animation c = true /\ cf_grid c = true /\ cf_custom c = true /\ cf_container c = true.

(** The sources' texts can be parts of an identifier, and one that begins the
    name is not empty. *)
Definition clean_source (pat : string) (so : source) : Prop :=
  no_nul (so_stem so) = true /\ no_nul (so_content so) = true /\
  (String.prefix "[name]" pat = true -> so_stem so <> "") /\
  (String.prefix "[content-hash]" pat = true -> so_content so <> "").

(** * composes *)

(** What a [composes] declaration of class [id] in source [i] adds. *)
Inductive composed (hash32 : string -> N) (pat : string) (sources : list source)
    : op -> nat -> string -> reference -> Prop :=
  | composed_local : forall sels names i id s n, In (Some id) sels -> In s names ->
      scoped hash32 pat sources i s n ->
      composed hash32 pat sources (Compose sels names None i) i id (RLocal n)
  | composed_global : forall sels names i id s, In (Some id) sels -> In s names ->
      composed hash32 pat sources (Compose sels names (Some SpGlobal) i) i id (RGlobal s)
  | composed_file : forall sels names i id s f, In (Some id) sels -> In s names ->
      composed hash32 pat sources (Compose sels names (Some (SpFile f)) i) i id (RDependency s f).
Definition from_bundle (o : op) : bool :=
  match o with Compose _ _ (Some (SpIndex _)) _ => true | _ => false end.

(** The name printed for a reference to [s] of another file. *)
Definition file_reference (hash32 : string -> N) (pat : string) (so : source) (s file : string) : string :=
  "--" ++ hash_text (hash32 (hash_text (hash32 (so_path so)) (begins_with_hash pat) ++ "_" ++ s ++ "_" ++ file)) false.

(** [b] continues [a]. *)
Definition extends {A} (a b : list A) : Prop := exists r, b = (a ++ r)%list.

(** Between [p] and [q] the printer wrote [before] and a text that reads as the
    name [n]. *)
Definition prints (before : string) (n : string) (p q : printer) : Prop :=
  exists text, p_out q = p_out p ++ before ++ text /\
    forall t, ends_name t = true -> read_ident (text ++ t) = Some (n, t).

(** The key [k] is that of an operation in [l], begun at source [i0]. *)
Definition occurs_op (f : op -> option string) (l : list op) (i0 : nat) (k : key) : Prop :=
  exists l1 o l2, l = (l1 ++ o :: l2)%list /\ f o = Some (snd k) /\ source_after l1 i0 = fst k.
