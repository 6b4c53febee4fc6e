(** * Model of vendor prefixes and property ids: src/vendor_prefix.rs, src/properties/mod.rs *)
From Coq Require Import List Bool String Ascii.
From Verif Require Import MediaModel.
Import ListNotations.
Local Open Scope string_scope.

(** vendor_prefix.rs:23-33: the single flags ([Unprefixed] is [VendorPrefix::None]) *)
Inductive pfx := WebKit | Moz | Ms | Opera | Unprefixed.

(** The bit set [VendorPrefix] (vendor_prefix.rs:22), one boolean per flag *)
Record vset := VSet { v_webkit : bool; v_moz : bool; v_ms : bool; v_o : bool; v_none : bool }.

Definition vs_empty := VSet false false false false false.
Definition vs_one (p : pfx) : vset :=
  match p with
  | WebKit => VSet true false false false false
  | Moz => VSet false true false false false
  | Ms => VSet false false true false false
  | Opera => VSet false false false true false
  | Unprefixed => VSet false false false false true
  end.
Definition vs_has (p : pfx) (s : vset) : bool :=
  match p with
  | WebKit => v_webkit s | Moz => v_moz s | Ms => v_ms s | Opera => v_o s | Unprefixed => v_none s
  end.
(** [a | b] *)
Definition vs_or (a b : vset) : vset :=
  VSet (v_webkit a || v_webkit b) (v_moz a || v_moz b) (v_ms a || v_ms b) (v_o a || v_o b)
       (v_none a || v_none b).
(** [a & b] *)
Definition vs_and (a b : vset) : vset :=
  VSet (v_webkit a && v_webkit b) (v_moz a && v_moz b) (v_ms a && v_ms b) (v_o a && v_o b)
       (v_none a && v_none b).
Definition vs_eqb (a b : vset) : bool :=
  Bool.eqb (v_webkit a) (v_webkit b) && Bool.eqb (v_moz a) (v_moz b) && Bool.eqb (v_ms a) (v_ms b)
  && Bool.eqb (v_o a) (v_o b) && Bool.eqb (v_none a) (v_none b).
Definition vs_is_empty (a : vset) : bool := vs_eqb a vs_empty.
(** [a.contains(b)] *)
Definition vs_contains (a b : vset) : bool := vs_eqb (vs_and a b) b.
(** vendor_prefix.rs:57-69 [or_none] *)
Definition vs_or_none (a : vset) : vset := if vs_is_empty a then vs_one Unprefixed else a.
(** bitflags iteration: the flags of the set in the order of their declaration *)
Definition vs_iter (a : vset) : list pfx :=
  filter (fun p => vs_has p a) [WebKit; Moz; Ms; Opera; Unprefixed].

(** vendor_prefix.rs:80-94 [to_css] of a single flag *)
Definition pfx_text (p : pfx) : string :=
  match p with
  | WebKit => "-webkit-" | Moz => "-moz-" | Ms => "-ms-" | Opera => "-o-" | Unprefixed => ""
  end.

(** A line of the [define_properties!] table (properties/mod.rs:171-176) *)
Record entry := Entry { e_name : string; e_vp : bool; e_prefixes : list pfx; e_unprefixed : bool }.

(** properties/mod.rs:181-192 [PropertyId]: a table property with or without a vendor prefix,
    [all], or a custom or unknown name.  [CustomPropertyName] is reduced to its text. *)
Inductive pid :=
| PVp (name : string) (p : vset)
| PPlain (name : string)
| PAll
| PCustom (name : string).

Definition pid_eqb (a b : pid) : bool :=
  match a, b with
  | PVp n p, PVp m q => String.eqb n m && vs_eqb p q
  | PPlain n, PPlain m => String.eqb n m
  | PAll, PAll => true
  | PCustom n, PCustom m => String.eqb n m
  | _, _ => false
  end.

Section Table.
Variable table : list entry.

(** properties/mod.rs:273-298 [from_name_and_prefix]; [match_ignore_ascii_case!] selects the first
    arm equal to the name, an arm that does not allow the prefix falls through to [Err] *)
Definition from_name_and_prefix (name : string) (p : pfx) : option pid :=
  match find (fun e => ieq name (e_name e)) table with
  | Some e =>
      let allowed := vs_or (if e_unprefixed e then vs_one Unprefixed else vs_empty)
                           (fold_right (fun q s => vs_or (vs_one q) s) vs_empty (e_prefixes e)) in
      if vs_contains allowed (vs_one p)
      then Some (if e_vp e then PVp (e_name e) (vs_one p) else PPlain (e_name e))
      else None
  | None => if ieq name "all" then Some PAll else None
  end.

(** properties/mod.rs:218-230: the prefix and the rest of a name *)
Definition split_prefix (name : string) : pfx * string :=
  match istrip_prefix "-webkit-" name with
  | Some r => (WebKit, r)
  | None =>
    match istrip_prefix "-moz-" name with
    | Some r => (Moz, r)
    | None =>
      match istrip_prefix "-o-" name with
      | Some r => (Opera, r)
      | None =>
        match istrip_prefix "-ms-" name with
        | Some r => (Ms, r)
        | None => (Unprefixed, name)
        end
      end
    end
  end.

(** properties/mod.rs:216-234 [From<CowArcStr>] *)
Definition pid_from (name : string) : pid :=
  let (p, r) := split_prefix name in
  match from_name_and_prefix r p with Some i => i | None => PCustom name end.

End Table.

(** properties/mod.rs:301-322 [prefix] *)
Definition pid_prefix (i : pid) : vset := match i with PVp _ p => p | _ => vs_empty end.
(** properties/mod.rs:324-344 [with_prefix] *)
Definition pid_with_prefix (i : pid) (p : vset) : pid := match i with PVp n _ => PVp n p | _ => i end.
(** properties/mod.rs:346-364 [add_prefix] *)
Definition pid_add_prefix (i : pid) (p : vset) : pid := match i with PVp n q => PVp n (vs_or q p) | _ => i end.
(** properties/mod.rs:388-399 [name] *)
Definition pid_name (i : pid) : string :=
  match i with PVp n _ => n | PPlain n => n | PAll => "all" | PCustom n => n end.

(** properties/mod.rs:248-270 [to_css]: the names written, one per prefix *)
Definition pid_names (i : pid) : list string :=
  map (fun p => pfx_text p ++ pid_name i) (vs_iter (vs_or_none (pid_prefix i))).
