(** * The property [position] and its handler (properties/position.rs) *)

From Coq Require Import List String Bool.
Import ListNotations.
Local Open Scope string_scope.

(** position.rs:26-37 [Position].  Of the prefixes of [sticky] only two are
    ever looked at: none ([bare]) and [-webkit-] ([webkit]). *)
Inductive position := Static | Relative | Absolute | Fixed | Sticky (bare webkit : bool).

(** position.rs:39-56 [Position::parse]; the word is in lower case, as the
    keywords are compared without regard to case. *)
Definition parse_position (w : string) : option position :=
  if w =? "static" then Some Static
  else if w =? "relative" then Some Relative
  else if w =? "absolute" then Some Absolute
  else if w =? "fixed" then Some Fixed
  else if w =? "sticky" then Some (Sticky true false)
  else if w =? "-webkit-sticky" then Some (Sticky false true)
  else None.

(** vendor_prefix.rs:81-94 [VendorPrefix::to_css]: [-webkit-] if that is the
    prefix, nothing for all other sets *)
Definition print_prefix (bare webkit : bool) : string :=
  if webkit && negb bare then "-webkit-" else "".

(** position.rs:58-74 [Position::to_css] *)
Definition print_position (v : position) : string :=
  match v with
  | Static => "static"
  | Relative => "relative"
  | Absolute => "absolute"
  | Fixed => "fixed"
  | Sticky b w => print_prefix b w ++ "sticky"
  end.

Local Open Scope list_scope.

(** A declaration of [position]: a value, or tokens (with [var()], or a
    value that is not known) that are kept as they are. *)
Inductive decl := Pos (v : position) | Tokens (n : nat).

(** position.rs:99-118 [PositionHandler::handle_property].  A declaration
    the handler does not take is pushed at once (declaration.rs:248-252). *)
Definition handle (st : option position * list decl) (d : decl)
  : option position * list decl :=
  match d with
  | Pos v =>
      (Some (match fst st, v with
             | Some (Sticky b w), Sticky b' w' => Sticky (b || b') (w || w')
             | _, _ => v
             end), snd st)
  | Tokens n => (fst st, snd st ++ [Tokens n])
  end.

(** position.rs:120-143 [PositionHandler::finalize]; [prefixes] is
    targets.rs:243-253 for [Feature::Sticky], on the two prefixes. *)
Definition finalize (prefixes : bool * bool -> bool * bool) (p : option position) : list decl :=
  match p with
  | None => []
  | Some (Sticky b w) =>
      let (b, w) := prefixes (b, w) in
      (if w then [Pos (Sticky false true)] else [])
        ++ (if b then [Pos (Sticky true false)] else [])
  | Some v => [Pos v]
  end.

Definition run (prefixes : bool * bool -> bool * bool) (l : list decl) : list decl :=
  let st := fold_left handle l (None, []) in
  snd st ++ finalize prefixes (fst st).

(** targets.rs:243-253: [answer] is prefixes.rs [Feature::prefixes_for], with
    or without [-webkit-], if browsers are given. *)
Definition given (exclude include : bool) (answer : option bool) (p : bool * bool)
  : bool * bool :=
  if fst p && negb exclude then
    if include then (true, true)
    else match answer with Some w => (true, w) | None => p end
  else p.

Definition no_targets (p : bool * bool) : bool * bool := p.
