(** What a naming pattern means: the text with its placeholders replaced. *)
From Coq Require Import List Bool String Ascii PeanoNat NArith.
From Verif Require Import PatternModel.
Import ListNotations.
Local Open Scope string_scope.

Inductive slot := Name | Local | Hash | ContentHash.
Definition slot_text (k : slot) : string :=
  match k with
  | Name => "[name]"
  | Local => "[local]"
  | Hash => "[hash]"
  | ContentHash => "[content-hash]"
  end.

(** [filled v s out]: [out] is [s] with every placeholder replaced by its value
    and everything else copied.  A bracket that opens no placeholder has no
    meaning. *)
Inductive filled (v : slot -> string) : string -> string -> Prop :=
  | filled_nil : filled v "" ""
  | filled_char : forall c s o, c <> "["%char -> filled v s o -> filled v (String c s) (String c o)
  | filled_slot : forall k s o, filled v s o -> filled v (slot_text k ++ s) (v k ++ o).

(** The values of one local name in one file. *)
Definition values (hash stem local content : string) (k : slot) : string :=
  match k with
  | Name => undot stem
  | Local => local
  | Hash => hash
  | ContentHash => content
  end.

(** Does the text contain a character? *)
Fixpoint occurs (c : ascii) (s : string) : bool :=
  match s with "" => false | String d r => Ascii.eqb c d || occurs c r end.

(** The four texts that are placeholders. *)
Definition is_slot_text (s : string) : Prop := exists k, s = slot_text k.

Definition has_local (p : list segment) : Prop := In SLocal p.
Definition fixed_segment (s : segment) : bool :=
  match s with SName | SContentHash => false | _ => true end.

(** Is [v] a 32-bit value? *)
Definition is_u32 (v : N) : Prop := (v < 4294967296)%N.

(** The name a pattern gives to a local name in a file whose hash value is [v]. *)
Definition name_in (p : list segment) (v : N) (stem local content : string) : option string :=
  match hash_at_start p with
  | None => None
  | Some b => Some (pattern_string p "" (hash_text v b) stem local content)
  end.

(** A literal that does not begin with a character a hash can end with. *)
Definition separates (s : string) : bool :=
  match s with
  | "" => false
  | String c _ => negb (existsb (Ascii.eqb c) ["a"; "q"; "G"; "W"]%char)
  end.
