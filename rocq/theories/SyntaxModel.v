(** * Syntax strings of [@property] (/repo/src/values/syntax.rs, /repo/src/rules/property.rs)

    Simplifications.  Strings are bytes: the bytes of characters beyond ASCII are all at least 128, like
    the characters themselves (values/syntax.rs:367-376).  In values, a [<length>], a [<color>] and so on is one component value,
    read by a parameter; white space and comments between component values are left out. *)
From Coq Require Import List Bool Ascii String.
From Verif Require Import AnimModel.
Import ListNotations.
Local Open Scope string_scope.
Local Open Scope bool_scope.

(** values/syntax.rs:58-91 *)
Inductive kind :=
| Length | Number | Percentage | LengthPercentage | CssString | Color | Image | Url | Integer | Angle | Time | Resolution
| TransformFunction | TransformList | CustomIdent | Literal (s : string).
(** values/syntax.rs:95-112 *)
Inductive multiplier := One | Space | Comma.
(** values/syntax.rs:40-46 *)
Record component := Component { c_kind : kind; c_multiplier : multiplier }.
(** values/syntax.rs:24-30 *)
Inductive syntax := Components (l : list component) | Universal.

(** values/syntax.rs:326-327 *)
Definition space (c : ascii) : bool := Nat.eqb (nat_of_ascii c) 32 || Nat.eqb (nat_of_ascii c) 9.
(** [trim_start_matches], [trim_matches] *)
Fixpoint trim_start (s : string) : string :=
  match s with "" => "" | String c r => if space c then trim_start r else s end.
Fixpoint trim_end (s : string) : string :=
  match s with
  | "" => ""
  | String c r => match trim_end r with "" => if space c then "" else String c "" | r' => String c r' end
  end.
(** values/syntax.rs:367-376 *)
Definition range (a b : nat) (c : ascii) : bool := Nat.leb a (nat_of_ascii c) && Nat.leb (nat_of_ascii c) b.
Definition ident_start (c : ascii) : bool :=
  range 65 90 c || range 97 122 c || Nat.leb 128 (nat_of_ascii c) || Nat.eqb (nat_of_ascii c) 95.
Definition name_code_point (c : ascii) : bool := ident_start c || range 48 57 c || Nat.eqb (nat_of_ascii c) 45.
(** [find]: what is before the first character that is not (or is) so, and the rest with it *)
Fixpoint split_while (p : ascii -> bool) (s : string) : string * string :=
  match s with
  | "" => ("", "")
  | String c r => if p c then let (a, b) := split_while p r in (String c a, b) else ("", s)
  end.
(** values/syntax.rs:337-354, the names *)
Definition data_type (name : string) : option kind :=
  if is_kw "length" name then Some Length
  else if is_kw "number" name then Some Number
  else if is_kw "percentage" name then Some Percentage
  else if is_kw "length-percentage" name then Some LengthPercentage
  else if is_kw "string" name then Some CssString
  else if is_kw "color" name then Some Color
  else if is_kw "image" name then Some Image
  else if is_kw "url" name then Some Url
  else if is_kw "integer" name then Some Integer
  else if is_kw "angle" name then Some Angle
  else if is_kw "time" name then Some Time
  else if is_kw "resolution" name then Some Resolution
  else if is_kw "transform-function" name then Some TransformFunction
  else if is_kw "transform-list" name then Some TransformList
  else if is_kw "custom-ident" name then Some CustomIdent
  else None.
(** values/syntax.rs:330-365 *)
Definition parse_kind (s : string) : option (kind * string) :=
  match trim_start s with
  | "" => None
  | String c r =>
      if Ascii.eqb c "<" then
        match split_while (fun c => negb (Ascii.eqb c ">")) r with
        | (name, String _ rest) => option_map (fun k => (k, rest)) (data_type name)
        | (_, "") => None
        end
      else if ident_start c then let (name, rest) := split_while name_code_point (String c r) in Some (Literal name, rest)
      else None
  end.
(** values/syntax.rs:298-322 *)
Definition parse_component (s : string) : option (component * string) :=
  match parse_kind s with
  | None => None
  | Some (TransformList, rest) => Some (Component TransformList One, rest)
  | Some (k, rest) =>
      match rest with
      | String "+" rest' => Some (Component k Space, rest')
      | String "#" rest' => Some (Component k Comma, rest')
      | _ => Some (Component k One, rest)
      end
  end.
(** values/syntax.rs:180-197, the loop, with fuel for the characters *)
Fixpoint parse_loop (fuel : nat) (s : string) : option (list component) :=
  match fuel with
  | 0 => None
  | S fuel =>
      match parse_component s with
      | None => None
      | Some (c, rest) =>
          match trim_start rest with
          | "" => Some [c]
          | String "|" rest' => option_map (cons c) (parse_loop fuel rest')
          | _ => None
          end
      end
  end.
(** values/syntax.rs:167-200 *)
Definition parse_string (s : string) : option syntax :=
  let input := trim_start (trim_end s) in
  if String.eqb input "" then None
  else if String.eqb input "*" then Some Universal
  else option_map Components (parse_loop (S (String.length input)) input).

(** values/syntax.rs:440-464 *)
Definition print_kind (k : kind) : string :=
  match k with
  | Length => "<length>" | Number => "<number>" | Percentage => "<percentage>" | LengthPercentage => "<length-percentage>"
  | CssString => "<string>" | Color => "<color>" | Image => "<image>" | Url => "<url>" | Integer => "<integer>" | Angle => "<angle>"
  | Time => "<time>" | Resolution => "<resolution>" | TransformFunction => "<transform-function>" | TransformList => "<transform-list>"
  | CustomIdent => "<custom-ident>" | Literal l => l
  end.
(** values/syntax.rs:425-437 *)
Definition print_component (c : component) : string :=
  print_kind (c_kind c) ++ match c_multiplier c with One => "" | Comma => "#" | Space => "+" end.
(** printer.rs:175-183 [delim('|', true)] *)
Definition bar (minify : bool) : string := if minify then "|" else " | ".
Fixpoint print_components (minify : bool) (l : list component) : string :=
  match l with
  | [] => ""
  | [c] => print_component c
  | c :: r => print_component c ++ bar minify ++ print_components minify r
  end.
(** values/syntax.rs:395-422, between the quotes *)
Definition print_syntax (minify : bool) (d : syntax) : string :=
  match d with Universal => "*" | Components l => print_components minify l end.

(** ** Values *)
Section Values.
(** Component values and what they stand for; [one k t] is the parser of a single [<k>] (not of literals and not of [<transform-list>]) *)
Context {tok val : Type} (one : kind -> tok -> option val) (ident : tok -> option string) (comma : tok -> bool) (none : tok -> bool).
(** values/syntax.rs:120-164 [ParsedComponent], without token lists (C69) *)
Inductive single := Value (k : kind) (v : val) | Transforms (l : list val) | Word (s : string).
Inductive parsed := Single (s : single) | Repeated (l : list single) (m : multiplier).
(** properties/transform.rs:38-45, the loop *)
Fixpoint transforms (l : list tok) : list val * list tok :=
  match l with
  | t :: r => match one TransformFunction t with Some v => let (vs, rest) := transforms r in (v :: vs, rest) | None => ([], l) end
  | [] => ([], [])
  end.
(** values/syntax.rs:219-257; properties/transform.rs:30-47 *)
Definition parse_single (k : kind) (l : list tok) : option (single * list tok) :=
  match l with
  | [] => None
  | t :: r =>
      match k with
      | Literal s => match ident t with Some n => if String.eqb n s then Some (Word n, r) else None | None => None end
      | TransformList => if none t then Some (Transforms [], r) else match transforms l with ([], _) => None | (vs, rest) => Some (Transforms vs, rest) end
      | _ => option_map (fun v => (Value k v, r)) (one k t)
      end
  end.
(** values/syntax.rs:217-288, the inner loop, with fuel for the component values.  [None]: out of fuel; [Some None]: the next component is tried. *)
Fixpoint repeat_loop (fuel : nat) (c : component) (seen : list single) (l : list tok) : option (option (parsed * list tok)) :=
  match fuel with
  | 0 => None
  | S fuel =>
      match parse_single (c_kind c) l with
      | None => Some None
      | Some (v, rest) =>
          match c_multiplier c with
          | One => Some (Some (Single v, rest))
          | Space => match rest with [] => Some (Some (Repeated (seen ++ [v]) Space, [])) | _ => repeat_loop fuel c (seen ++ [v]) rest end
          | Comma =>
              match rest with
              | [] => Some (Some (Repeated (seen ++ [v]) Comma, []))
              | t :: rest' => if comma t then repeat_loop fuel c (seen ++ [v]) rest' else Some None
              end
          end
      end
  end.
(** values/syntax.rs:213-294, the outer loop *)
Fixpoint parse_value (cs : list component) (l : list tok) : option (option (parsed * list tok)) :=
  match cs with
  | [] => Some None
  | c :: cs =>
      match repeat_loop (S (List.length l)) c [] l with
      | None => None
      | Some (Some r) => Some (Some r)
      | Some None => parse_value cs l
      end
  end.
(** rules/property.rs:92-99: what is left of the value is not looked at *)
Definition initial_value (cs : list component) (l : list tok) : option parsed :=
  match parse_value cs l with Some (Some (p, _)) => Some p | _ => None end.

(** values/syntax.rs:466-511; [show] is the printer of a single value, [word] of an identifier *)
Context (show : val -> tok) (word : string -> tok) (comma_tok : tok).
(** properties/transform.rs:49-95, not minified *)
Definition print_single (s : single) : list tok :=
  match s with Value _ v => [show v] | Transforms [] => [word "none"] | Transforms l => map show l | Word s => [word s] end.
Fixpoint print_list (m : multiplier) (l : list single) : list tok :=
  match l with
  | [] => []
  | [s] => print_single s
  | s :: r => (print_single s ++ (match m with Comma => [comma_tok] | _ => [] end) ++ print_list m r)%list
  end.
Definition print_value (p : parsed) : list tok :=
  match p with Single s => print_single s | Repeated l m => print_list m l end.
End Values.
