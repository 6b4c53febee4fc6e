(** Concrete CSS modules, runs of the printer and hash functions. *)
From Coq Require Import List Bool String Ascii PeanoNat NArith.
From Verif Require Import PatternModel PatternSpec PrinterModel PrinterSpec.
Import ListNotations.
Local Open Scope string_scope.
Local Open Scope list_scope.

Definition ex_hash (s : string) : N :=
  match s with
  | "a.css" => 11604176
  | "b.css" => 3292676347
  | "a_1bcXa" => 7
  | _ => N.of_nat (String.length s)
  end.
Definition ex_sources : list source := [mksource "a.css" "a" ""; mksource "b.css" "b.module" ""].
Definition ex_pat : string := "[hash]_[local]".
Definition ex_segments : list segment := [SHash; SLiteral "_"; SLocal].
Definition ex_config : config := mkconfig ex_segments true true true true true.
Definition ex_modules := (ex_config, ex_sources).
Definition no_remap (l : location) : option (option location) := None.

(** [.a { composes: b; --x: 1; color: var(--x); animation-name: spin }
     @keyframes spin {}], then [.b { composes: a from ... }] of the other
    file. *)
Definition ex_first : list op :=
  [AddMapping (mkloc 0 0 1); Site ClassName "a"; Whitespace; WriteChar "{"; Indent 2; Newline;
   Compose [Some "a"] ["b"] None 0; Compose [Some "a"] ["g"] (Some SpGlobal) 0;
   Dashed "--x"; Delim ":" false; WriteStr "1;"; Newline].
Definition ex_second : list op :=
  [WriteStr "color"; Delim ":" false; DashedRef "--x" None; WriteChar ";"; Newline;
   WriteStr "animation-name"; Delim ":" false; Site AnimationIdent "spin"; Dedent 2; Newline; WriteChar "}";
   AddMapping (mkloc 0 4 1); WriteStr "@keyframes "; Site KeyframesIdent "spin"; WriteStr "{}"].
Definition ex_third : list op :=
  [AddMapping (mkloc 1 0 1); Site ClassName "b"; Whitespace; WriteChar "{"].
Definition ex_fourth : list op := [Compose [Some "b"] ["a"] (Some (SpIndex 0)) 1; WriteChar "}"].
Definition ex_ops : list op := ex_first ++ ex_second.
Definition ex_all : list op := ex_ops ++ ex_third ++ ex_fourth.

Definition out_of (x : outcome) : string := match x with Fine p => p_out p | _ => "" end.
Definition state (x : outcome) : printer := match x with Fine p => p | _ => new_printer end.
Definition name_at (x : outcome) (i : nat) (s : string) : option string :=
  option_map ex_name (ex_get (p_exports (state x)) (i, s)).

(** The same with only some options. *)
Definition only_animation : config := mkconfig ex_segments false true false false false.
Definition only_local : config := mkconfig [SHash; SLocal] true true true true true.

Definition ex_block : block :=
  Nest [Leaf (WriteStr "a"); Nest [Leaf Newline; Leaf (WriteStr "b")]; Leaf Newline; Leaf (WriteChar "c")].
Fixpoint deep (n : nat) : list op := match n with 0 => [] | S n' => Indent 2 :: deep n' end.
