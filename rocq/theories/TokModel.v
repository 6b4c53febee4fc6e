(** Model of lists of tokens: the values of custom properties, of properties
    that are not known and of properties whose value uses var() or env(); how
    they are read and how they are printed.  /repo/src/properties/custom.rs.

    Numbers: the digits come from an external serializer (dtoa_short, not part
    of /repo); a number carries them as a numeral.  [Token::to_css] hands over to
    the cssparser crate, whose serializer (src/serializer.rs there) is modelled
    here as it is: [write_numeric], [serialize_string], [serialize_unquoted_url].
    Values with a type of their own (colours, lengths, angles, times,
    resolutions) are what their printers write, given as the tokens written.
    Not modelled: dependencies (placeholders for addresses), CSS modules
    (renaming, [from]), animation names, infinite or undefined numbers. *)
From Coq Require Import List Bool String Ascii PeanoNat.
From Verif Require Import IdentModel NumTextModel TokSpec.
Import ListNotations.
Local Open Scope bool_scope.
Local Open Scope string_scope.

(** ** Numbers *)

(** An [f32] with the flags of the token.  [n_dec]: what the external serializer
    writes; [n_whole]: [value.fract() == 0.]; [n_small]:
    [value != 0.0 && value.abs() < 1.0]; [n_sign]: [has_sign]; [n_int]:
    [int_value.is_some()]. *)
Record num := { n_dec : dec; n_whole : bool; n_small : bool; n_sign : bool; n_int : bool }.

(** What the external serializer writes. *)
Definition dec_text (d : dec) : string :=
  (if d_neg d then "-" else "") ++ d_int d
  ++ (if nonempty (d_frac d) then "." ++ d_frac d else "")
  ++ match d_exp d with
     | None => ""
     | Some (n, t) => "e" ++ (if n then "-" else "") ++ t
     end.

(** [notation.decimal_point], [notation.scientific]. *)
Definition has_point (d : dec) : bool := nonempty (d_frac d).
Definition scientific (d : dec) : bool := match d_exp d with None => false | Some _ => true end.

(** cssparser [write_numeric]. *)
Definition write_numeric (n : num) : string :=
  (if n_sign n && negb (d_neg (n_dec n)) then "+" else "") ++ dec_text (n_dec n)
  ++ (if negb (n_int n) && n_whole n && negb (has_point (n_dec n)) && negb (scientific (n_dec n))
      then ".0" else "").

(** [f32::to_css] of cssparser: no sign, [int_value] is known for whole numbers. *)
Definition plain (n : num) : num :=
  {| n_dec := n_dec n; n_whole := n_whole n; n_small := n_small n; n_sign := false; n_int := n_whole n |}.

(** values/number.rs:37-46 [CSSNumber::to_css]. *)
Definition short_number (n : num) : string :=
  let s := write_numeric (plain n) in
  if n_small n then number_text (d_neg (n_dec n)) s else s.

(** cssparser: the unit of a dimension. *)
Definition unit_text (u : string) : string :=
  match u with
  | String c r =>
      if (Ascii.eqb c "e" || Ascii.eqb c "E")
         && match r with "" => true | String d _ => Ascii.eqb d dash end
      then "\65 " ++ ser_name r
      else ser_ident u
  | "" => ""
  end.

Definition raw_dimension (n : num) (u : string) : string := write_numeric n ++ unit_text u.

(** values/length.rs:486-511 [serialize_dimension]. *)
Definition short_dimension (n : num) (u : string) : string :=
  let s := raw_dimension (plain n) u in
  if n_small n then dimension_text (d_neg (n_dec n)) s else s.

Definition raw_percent (n : num) : string := write_numeric n ++ "%".

(** values/percentage.rs:48-66 [Percentage::to_css]. *)
Definition short_percent (n : num) : string :=
  let s := raw_percent (plain n) in
  if n_small n then dimension_text (d_neg (n_dec n)) s else s.

(** ** Strings and addresses: cssparser *)

(** [serialize_string], a byte at a time. *)
Definition string_byte (c : ascii) : string :=
  if Ascii.eqb c (ch 34) then char_escape c
  else if Ascii.eqb c backslash then char_escape c
  else if Ascii.eqb c (ch 0) then replacement
  else if between 1 31 c || Ascii.eqb c (ch 127) then hex_escape c
  else one c.
Fixpoint string_bytes (s : string) : string :=
  match s with "" => "" | String c r => string_byte c ++ string_bytes r end.
Definition ser_string (s : string) : string := one (ch 34) ++ string_bytes s ++ one (ch 34).

(** [serialize_unquoted_url]. *)
Definition url_byte (c : ascii) : string :=
  if between 0 32 c || Ascii.eqb c (ch 127) then hex_escape c
  else if Ascii.eqb c (ch 34) || Ascii.eqb c (ch 39) || Ascii.eqb c (ch 40) || Ascii.eqb c (ch 41)
          || Ascii.eqb c backslash then char_escape c
  else one c.
Fixpoint url_bytes (s : string) : string :=
  match s with "" => "" | String c r => url_byte c ++ url_bytes r end.
Definition unquoted (s : string) : string := "url(" ++ url_bytes s ++ ")".

(** ** Tokens *)

(** custom.rs:631-745 [Token], without the two kinds of bad tokens, which are
    never kept (custom.rs:442-447). *)
Inductive match_op := Include | Dash | Prefix | Suffix | Substring.
Inductive token :=
  | TIdent (n : string)
  | TAt (n : string)
  | THash (n : string)
  | TIdHash (n : string)
  | TString (s : string)
  | TUrl (s : string)
  | TFunction (n : string)
  | TDelim (c : ascii)
  | TNumber (n : num)
  | TPercent (n : num)
  | TDimension (n : num) (u : string)
  | TSpace (w : string)
  | TComment (c : string)
  | TColon | TSemicolon | TComma
  | TMatch (m : match_op)
  | TCDO | TCDC
  | TOpen (b : bracket) | TClose (b : bracket).

Definition open_text (b : bracket) : string :=
  match b with Paren => "(" | Square => "[" | Curly => "{" end.
Definition close_text (b : bracket) : string :=
  match b with Paren => ")" | Square => "]" | Curly => "}" end.
Definition match_text (m : match_op) : string :=
  match m with
  | Include => "~=" | Dash => "|=" | Prefix => "^=" | Suffix => "$=" | Substring => "*="
  end.

(** custom.rs:841-918 [Token::to_css]. *)
Definition token_text (minify : bool) (t : token) : string :=
  match t with
  | TIdent n => ser_ident n
  | TAt n => "@" ++ ser_ident n
  | THash n => "#" ++ ser_name n
  | TIdHash n => "#" ++ ser_ident n
  | TString s => ser_string s
  | TUrl s => unquoted s
  | TFunction n => ser_ident n ++ "("
  | TDelim c => one c
  | TNumber n => write_numeric n
  | TPercent n => raw_percent n
  | TDimension n u => raw_dimension n u
  | TSpace w => if minify then " " else w
  | TComment c => if minify then "" else "/*" ++ c ++ "*/"
  | TColon => ":" | TSemicolon => ";" | TComma => ","
  | TMatch m => match_text m
  | TCDO => "<!--" | TCDC => "-->"
  | TOpen b => open_text b | TClose b => close_text b
  end.

(** The printers of values: numbers, dimensions and percentages without leading
    zeros; everything else as a token. *)
Definition short_text (minify : bool) (t : token) : string :=
  match t with
  | TNumber n => short_number n
  | TDimension n u => short_dimension n u
  | TPercent n => short_percent n
  | _ => token_text minify t
  end.

(** ** Lists of tokens *)

(** custom.rs:228-262 [TokenOrValue].  [Typed]: a colour, unresolved colour,
    length, angle, time or resolution, as the tokens its printer writes.  A
    variable has its name and a fallback; an environment variable also has
    indices. *)
Inductive item :=
  | Tok (t : token)
  | Typed (ts : list token)
  | Url (u : string)
  | Dashed (n : string)
  | Var (n : string) (fallback : option (list item))
  | Env (n : string) (indices : list num) (fallback : option (list item))
  | Func (n : string) (args : list item).

(** custom.rs:264-279 [TokenOrValue::is_whitespace]. *)
Definition is_space (i : item) : bool := match i with Tok (TSpace _) => true | _ => false end.
(** custom.rs:981-986 [TokenList::starts_with_whitespace]. *)
Definition starts_space (l : list item) : bool := match l with i :: _ => is_space i | [] => false end.

(** values/url.rs:40-85 [Url::to_css], without dependencies. *)
Definition url_text (minify : bool) (u : string) : string :=
  if minify then
    let buf := unquoted u in
    if Nat.ltb (String.length u + 7) (String.length buf)
       && Nat.ltb (String.length (ser_string u) + 5) (String.length buf)
    then "url(" ++ ser_string u ++ ")"
    else buf
  else "url(" ++ ser_string u ++ ")".

(** custom.rs:531-543, the printing of a token in a list. *)
Definition item_token (minify : bool) (t : token) : string :=
  match t with
  | TDimension n u => short_dimension n u
  | TNumber n => short_number n
  | _ => token_text minify t
  end.

(** custom.rs:482-551 [TokenList::to_css], 1214-1229 [Variable::to_css],
    1378-1400 [EnvironmentVariable::to_css], 1425-1433 [Function::to_css].  A
    name is written by [serialize_identifier]. *)
Definition cat (l : list string) : string := fold_right String.append "" l.
Fixpoint item_text (minify : bool) (i : item) : string :=
  let list_text := fix go (l : list item) : string :=
    match l with [] => "" | i :: r => item_text minify i ++ go r end in
  let fallback_text (fb : option (list item)) :=
    match fb with
    | None => ""
    | Some l => "," ++ (if starts_space l || minify then "" else " ") ++ list_text l
    end in
  match i with
  | Tok t => item_token minify t
  | Typed ts => cat (map (short_text minify) ts)
  | Url u => url_text minify u
  | Dashed n => ser_ident n
  | Var n fb => "var(" ++ ser_ident n ++ fallback_text fb ++ ")"
  | Env n ix fb =>
      "env(" ++ ser_ident n ++ cat (map (fun x => " " ++ short_number x) ix) ++ fallback_text fb ++ ")"
  | Func n args => ser_ident n ++ "(" ++ list_text args ++ ")"
  end.
Definition print (minify : bool) (l : list item) : string := cat (map (item_text minify) l).

(** custom.rs:553-571 [TokenList::to_css_raw]; only tokens can be printed. *)
Fixpoint print_raw (minify : bool) (l : list item) : option string :=
  match l with
  | [] => Some ""
  | Tok t :: r => match print_raw minify r with Some s => Some (token_text minify t ++ s) | None => None end
  | _ => None
  end.

(** ** Reading *)

(** What the tokenizer of cssparser hands over: tokens, with blocks and functions
    closed (at the end of the text if need be). *)
Inductive tree :=
  | Leaf (t : token)
  | Block (b : bracket) (body : list tree)
  | Call (f : string) (args : list tree).

(** The readers of typed values: what their printers write then.  [o_color]:
    [try_parse_color_token] and [UnresolvedColor::parse]; [o_hash]:
    [parse_hash_color]; [o_dimension]: [LengthValue], [Angle], [Time],
    [Resolution]. *)
Record readers := {
  o_color : string -> list tree -> option (list token);
  o_hash : string -> option (list token);
  o_dimension : num -> string -> option (list token)
}.

Definition starts_dashes (n : string) : bool := String.prefix "--" n.

(** Parser::skip_whitespace, Parser::next: white space and comments before a token. *)
Definition skipped (t : tree) : bool :=
  match t with Leaf (TSpace _) | Leaf (TComment _) => true | _ => false end.
Fixpoint skip {A} (l : list (tree * A)) : list (tree * A) :=
  match l with
  | (t, a) :: r => if skipped t then skip r else l
  | [] => []
  end.

(** custom.rs:290-313 [TokenList::parse], after [parse_into]: the first and the last
    item are dropped if they are white space and there are at least two. *)
Definition drop_last {A} (l : list A) : list A := removelast l.
Definition trim (l : list item) : list item :=
  match l with
  | a :: _ :: _ =>
      let l1 := if is_space a then List.tl l else l in
      if is_space (List.last l a) then drop_last l1 else l1
  | _ => l
  end.

Section Read.
Variable o : readers.

Fixpoint concat_some {A} (l : list (option (list A))) : option (list A) :=
  match l with
  | [] => Some []
  | Some a :: r => match concat_some r with Some b => Some (a ++ b)%list | None => None end
  | None :: _ => None
  end.

(** A comma and a fallback, or nothing.  [l]: what is left of the arguments, each
    with the items it is read as; [deep]: the fallback would be nested too deep. *)
Definition read_fallback (deep : bool) (l : list (tree * option (list item)))
  : option (option (list item)) :=
  match skip l with
  | [] => Some None
  | (Leaf TComma, _) :: r =>
      if deep then None else
      match concat_some (map snd r) with Some x => Some (Some (trim x)) | None => None end
  | _ => None
  end.

(** custom.rs:1193-1210 [Variable::parse]; values/ident.rs:213-232: the name starts
    with two dashes. *)
Definition read_var (deep : bool) (l : list (tree * option (list item))) : option item :=
  match skip l with
  | (Leaf (TIdent n), _) :: r =>
      if starts_dashes n then
        match read_fallback deep r with Some fb => Some (Var n fb) | None => None end
      else None
  | _ => None
  end.

(** The indices of an environment variable: whole numbers. *)
Fixpoint read_indices (fuel : nat) (l : list (tree * option (list item)))
  : list num * list (tree * option (list item)) :=
  match fuel with
  | 0 => ([], l)
  | S k =>
      match skip l with
      | (Leaf (TNumber x), _) :: r =>
          if n_int x then let (xs, r') := read_indices k r in (x :: xs, r') else ([], l)
      | _ => ([], l)
      end
  end.

(** custom.rs:1356-1375 [EnvironmentVariable::parse_nested].  A known name in
    another case is printed in lower case (it is compared without regard to
    case); this is not modelled.  The fallback is counted as one level of nesting
    here, as two there. *)
Definition read_env (deep : bool) (l : list (tree * option (list item))) : option item :=
  match skip l with
  | (Leaf (TIdent n), _) :: r =>
      let (ix, r') := read_indices (List.length r) r in
      match read_fallback deep r' with Some fb => Some (Env n ix fb) | None => None end
  | _ => None
  end.

(** [Parser::expect_url] for the function: one string. *)
Definition read_quoted_url (l : list (tree * option (list item))) : option item :=
  match skip l with
  | (Leaf (TString u), _) :: r => match skip r with [] => Some (Url u) | _ => None end
  | _ => None
  end.

(** custom.rs:360-456 [TokenList::parse_into], one token or block; [d] is what is
    left of the 500 levels.  Colours are [o_color] (custom.rs:372-378, 459-479):
    the names that may be colours are its business. *)
Fixpoint read_tree (d : nat) (t : tree) {struct t} : option (list item) :=
  let under (body : list tree) : list (tree * option (list item)) :=
    match d with
    | 0 => map (fun x => (x, None)) body
    | S d' => (fix go (l : list tree) :=
                 match l with [] => [] | x :: r => (x, read_tree d' x) :: go r end) body
    end in
  let deep : bool := match d with 0 => true | _ => false end in
  match t with
  | Leaf (THash h) | Leaf (TIdHash h) =>
      match o_hash o h with Some ts => Some [Typed ts] | None => Some [Tok (THash h)] end
  | Leaf (TUrl u) => Some [Url u]
  | Leaf (TIdent n) => if starts_dashes n then Some [Dashed n] else Some [Tok (TIdent n)]
  | Leaf (TDimension n u) =>
      match o_dimension o n u with Some ts => Some [Typed ts] | None => Some [Tok (TDimension n u)] end
  | Leaf (TClose _) | Leaf (TOpen _) | Leaf (TFunction _) => None
  | Leaf t => Some [Tok t]
  | Block b body =>
      if deep then None
      else match concat_some (map snd (under body)) with
           | Some l => Some (Tok (TOpen b) :: l ++ [Tok (TClose b)])%list
           | None => None
           end
  | Call f args =>
      match o_color o f args with
      | Some ts => Some [Typed ts]
      | None =>
          let one (i : option item) := match i with Some i => Some [i] | None => None end in
          if String.eqb f "url" then one (read_quoted_url (under args))
          else if String.eqb f "var" then one (read_var deep (under args))
          else if String.eqb f "env" then one (read_env deep (under args))
          else if deep then None
          else match concat_some (map snd (under args)) with
               | Some l => Some [Func f (trim l)]
               | None => None
               end
      end
  end.

(** custom.rs:290-313 [TokenList::parse], from the top: nesting may be 500 deep. *)
Definition read_list (d : nat) (l : list tree) : option (list item) :=
  match concat_some (map (read_tree d) l) with Some x => Some (trim x) | None => None end.

End Read.
