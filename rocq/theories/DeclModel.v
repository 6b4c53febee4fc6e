(** * Model of declaration blocks: src/declaration.rs, src/macros.rs and the [Property] part of
    src/properties/mod.rs *)
From Coq Require Import List Bool String PeanoNat.
From Verif Require Import VendorPrefixModel ShorthandTable.
Import ListNotations.
Local Open Scope string_scope.
Local Open Scope list_scope.
Local Open Scope nat_scope.

(** A value: the texts of its items.  Properties whose Rust type is not a list have one item. *)
Definition value := list string.
Definition value_dec (a b : value) : {a = b} + {a <> b} := list_eq_dec string_dec a b.
Definition value_eqb (a b : value) : bool := if value_dec a b then true else false.

(** properties/mod.rs:684-697 [Property].  [PShort] is a shorthand of the table with one value per
    field of its Rust type.  The list shorthands ([SmallVec<[T; 1]>]) are kept as columns, one per
    field of [T], all of the same length; the colour of [background], which only the last layer
    has, is a column with one item.  [PLong] is any other known property, [all] or a custom
    property.  [PUnparsed] is [Property::Unparsed]. *)
Inductive property :=
| PLong (id : pid) (v : value)
| PShort (id : pid) (vs : list value)
| PUnparsed (id : pid) (v : value).

(** properties/mod.rs:728-741 [property_id] *)
Definition prop_id (p : property) : pid :=
  match p with PLong i _ | PShort i _ | PUnparsed i _ => i end.

(** declaration.rs:61-68 [DeclarationBlock] *)
Record block := Block { b_important : list property; b_normal : list property }.

(** The table line of a shorthand id *)
Definition find_sh (i : pid) : option sh :=
  match i with
  | PVp n _ => find (fun s => String.eqb (sh_name s) n && sh_vp s) shorthand_table
  | PPlain n => find (fun s => String.eqb (sh_name s) n && negb (sh_vp s)) shorthand_table
  | _ => None
  end.

(** properties/mod.rs:402-417 [is_shorthand] *)
Definition is_shorthand (i : pid) : bool := match find_sh i with Some _ => true | None => false end.

(** [PropertyId::$prop$((vendor_prefix))?] *)
Definition lh_id (l : lh) (p : vset) : pid := if lh_vp l then PVp (lh_name l) p else PPlain (lh_name l).
(** Does an id have the constructor of this longhand? *)
Definition lh_is (l : lh) (i : pid) : bool :=
  match i with
  | PVp n _ => lh_vp l && String.eqb (lh_name l) n
  | PPlain n => negb (lh_vp l) && String.eqb (lh_name l) n
  | _ => false
  end.
(** The position of the field whose longhands include the id, and the number of its longhands *)
Fixpoint key_of (i : pid) (keys : list (list lh)) (k : nat) : option (nat * nat) :=
  match keys with
  | [] => None
  | g :: r => if existsb (fun l => lh_is l i) g then Some (k, List.length g) else key_of i r (S k)
  end.

(** The prefix passed to [longhands] and [from_longhands]: properties/mod.rs:425-433, 457-464 *)
Definition sh_prefix (i : pid) : vset :=
  match i with PVp _ p => p | _ => vs_one Unprefixed end.

(** macros.rs:507-509, 682-684, background.rs:697-709 [longhands] *)
Definition sh_longhands (s : sh) (p : vset) : list pid := map (fun l => lh_id l p) (List.concat (sh_keys s)).
(** properties/mod.rs:456-479 [longhands] *)
Definition longhands (i : pid) : option (list pid) :=
  match find_sh i with Some s => Some (sh_longhands s (sh_prefix i)) | None => None end.

(** macros.rs:511-522, 686-695, background.rs:711-740 [longhand] of a shorthand value *)
Definition sh_longhand (s : sh) (vs : list value) (i : pid) : option property :=
  match key_of i (sh_keys s) 0 with
  | Some (k, _) => Some (PLong i (nth k vs []))
  | None => None
  end.
(** properties/mod.rs:884-903 [longhand] *)
Definition longhand (p : property) (i : pid) : option property :=
  match p with
  | PShort id vs =>
      match find_sh id with
      | Some s =>
          if sh_vp s && negb (vs_eqb (pid_prefix id) (pid_prefix i)) then None
          else sh_longhand s vs i
      | None => None
      end
  | _ => None
  end.

Fixpoint set_nth (k : nat) (v : value) (vs : list value) : list value :=
  match vs, k with
  | [], _ => []
  | _ :: r, 0 => v :: r
  | x :: r, S k' => x :: set_nth k' v r
  end.

(** The number of items of a list shorthand ([self.len()]) *)
Definition sh_len (s : sh) (vs : list value) : nat :=
  match sh_kind s with
  | KBackground => List.length (nth 1 vs [])
  | _ => List.length (nth 0 vs [])
  end.

(** macros.rs:524-552, 697-714, background.rs:742-767 [set_longhand] of a shorthand value *)
Definition sh_set_longhand (s : sh) (vs : list value) (p : property) : option (list value) :=
  match p with
  | PLong i v =>
      match key_of i (sh_keys s) 0 with
      | Some (k, n) =>
          match sh_kind s with
          | KPlain => if Nat.ltb 1 n then None else Some (set_nth k v vs)
          | KList => if Nat.eqb (List.length v) (sh_len s vs) then Some (set_nth k v vs) else None
          | KBackground =>
              if Nat.eqb k 0 then Some (set_nth k v vs)
              else if Nat.eqb (List.length v) (sh_len s vs) then Some (set_nth k v vs) else None
          end
      | None => None
      end
  | PShort (PPlain "background-position") [x; y] =>
      match sh_kind s with
      | KBackground =>
          if Nat.eqb (List.length x) (sh_len s vs) then Some (set_nth 3 y (set_nth 2 x vs)) else None
      | _ => None
      end
  | _ => None
  end.
(** properties/mod.rs:907-926 [set_longhand]; [None] is [Err] *)
Definition set_longhand (d : property) (p : property) : option property :=
  match d with
  | PShort id vs =>
      match find_sh id with
      | Some s =>
          if sh_vp s && negb (vs_eqb (pid_prefix id) (pid_prefix (prop_id p))) then None
          else option_map (PShort id) (sh_set_longhand s vs p)
      | None => None
      end
  | _ => None
  end.

(** properties/mod.rs:483-517 [logical_group], [category] *)
Definition logical (i : pid) : option (lgroup * category) :=
  match i with
  | PVp n _ | PPlain n => option_map snd (find (fun e => String.eqb (fst e) n) logical_table)
  | _ => None
  end.
Definition lgroup_dec (a b : lgroup) : {a = b} + {a <> b}. Proof. decide equality. Defined.
Definition category_dec (a b : category) : {a = b} + {a <> b}. Proof. decide equality. Defined.

(** declaration.rs:324-347: the declarations in the order of [iter] *)
Definition block_iter (b : block) : list (property * bool) :=
  map (fun p => (p, false)) (b_normal b) ++ map (fun p => (p, true)) (b_important b).

(** ** [from_longhands] *)

(** The local variables: one option per longhand, the two counters and [length] *)
Record fl := Fl { f_vals : list (option value); f_count : nat; f_important : nat; f_length : option nat }.

Fixpoint set_opt (k : nat) (v : value) (vs : list (option value)) : list (option value) :=
  match vs, k with
  | [], _ => []
  | _ :: r, 0 => Some v :: r
  | x :: r, S k' => x :: set_opt k' v r
  end.
(** The position of the longhand with this constructor *)
Fixpoint flat_of (i : pid) (ls : list lh) (k : nat) : option (nat * lh) :=
  match ls with
  | [] => None
  | l :: r => if lh_is l i then Some (k, l) else flat_of i r (S k)
  end.
Definition bump (important : bool) (n : nat) (st : fl) : fl :=
  Fl (f_vals st) (f_count st + n) (f_important st + (if important then n else 0)) (f_length st).
Definition put (k : nat) (v : value) (st : fl) : fl :=
  Fl (set_opt k v (f_vals st)) (f_count st) (f_important st) (f_length st).

(** The loop over the longhands of another shorthand (macros.rs:445-459, 636-647); also the length of
    the last one found *)
Fixpoint take_longhands (d : property) (important : bool) (prefix : vset) (ls : list lh) (k : nat)
    (st : fl) (len : nat) : fl * nat :=
  match ls with
  | [] => (st, len)
  | l :: r =>
      match longhand d (lh_id l prefix) with
      | Some (PLong _ v) => take_longhands d important prefix r (S k) (bump important 1 (put k v st)) (List.length v)
      | _ => take_longhands d important prefix r (S k) st len
      end
  end.

(** The values of all longhands in order: a field that stands for several gives each its value *)
Fixpoint spread (keys : list (list lh)) (vs : list value) : list value :=
  match keys, vs with
  | g :: keys', v :: vs' => map (fun _ => v) g ++ spread keys' vs'
  | _, _ => []
  end.

(** Is this the id of the shorthand itself? *)
Definition sh_is (s : sh) (i : pid) : bool :=
  match i with
  | PVp n _ => sh_vp s && String.eqb (sh_name s) n
  | PPlain n => negb (sh_vp s) && String.eqb (sh_name s) n
  | _ => false
  end.

(** One iteration of the loop, before the check of the lengths: the new state and the length, or
    [None] for [return None].  The third component tells whether the iteration reaches the check
    (in background.rs it is skipped by [continue]). *)
Definition fl_step (s : sh) (prefix : vset) (st : fl) (d : property * bool) : option (fl * nat * bool) :=
  let '(p, important) := d in
  let ls := List.concat (sh_keys s) in
  match p with
  | PLong i v =>
      match flat_of i ls 0 with
      | Some (k, l) =>
          if lh_vp l && negb (vs_eqb (pid_prefix i) prefix) then None
          else Some (bump important 1 (put k v st), List.length v,
                     match sh_kind s with KBackground => negb (Nat.eqb k 0) | _ => true end)
      | None => Some (st, 0, match sh_kind s with KBackground => false | _ => true end)
      end
  | PShort i vs =>
      if sh_is s i then
        if sh_vp s && negb (vs_eqb (pid_prefix i) prefix) then None
        else Some (bump important (match sh_kind s with KPlain => List.length ls | _ => 1 end)
                     (Fl (map Some (spread (sh_keys s) vs)) (f_count st) (f_important st) (f_length st)),
                   sh_len s vs, true)
      else
        match sh_kind s with
        | KBackground =>
            match i, vs with
            | PPlain "background-position", [x; y] => Some (bump important 1 (put 3 y (put 2 x st)), List.length x, true)
            | _, _ => Some (st, 0, false)
            end
        | _ => let '(st', n) := take_longhands p important prefix ls 0 st 0 in Some (st', n, true)
        end
  | PUnparsed _ _ => Some (st, 0, match sh_kind s with KBackground => false | _ => true end)
  end.
(** macros.rs:650-655, background.rs:636-641: lengths must be equal.  The plain macro has no such
    check. *)
Definition check_length (s : sh) (n : nat) (st : fl) : option fl :=
  match sh_kind s with
  | KPlain => Some st
  | _ =>
      match f_length st with
      | None => Some (Fl (f_vals st) (f_count st) (f_important st) (Some n))
      | Some m => if Nat.eqb m n then Some st else None
      end
  end.
Fixpoint fl_loop (s : sh) (prefix : vset) (ds : list (property * bool)) (st : fl) : option fl :=
  match ds with
  | [] => Some st
  | d :: r =>
      match fl_step s prefix st d with
      | None => None
      | Some (st', n, checked) =>
          match (if checked then check_length s n st' else Some st') with
          | None => None
          | Some st'' => fl_loop s prefix r st''
          end
      end
  end.

Fixpoint all_some (l : list (option value)) : option (list value) :=
  match l with
  | [] => Some []
  | None :: _ => None
  | Some v :: r => option_map (cons v) (all_some r)
  end.
(** macros.rs:470-481: all longhands of a field must have the same value *)
Fixpoint group_values (keys : list (list lh)) (vs : list value) : option (list value) :=
  match keys with
  | [] => Some []
  | g :: keys' =>
      match firstn (List.length g) vs with
      | [] => None
      | v :: r =>
          if forallb (value_eqb v) r
          then option_map (cons v) (group_values keys' (skipn (List.length g) vs))
          else None
      end
  end.

Section Valid.
(** [is_valid] of [grid] and [grid-template] (grid.rs:916-924, 1291-1329); true for the others *)
Variable is_valid : string -> list value -> bool.

(** macros.rs:392-504, 594-679, background.rs:557-695 [from_longhands] *)
Definition from_longhands (s : sh) (b : block) (prefix : vset) : option (list value * bool) :=
  match fl_loop s prefix (block_iter b) (Fl (map (fun _ => None) (List.concat (sh_keys s))) 0 0 None) with
  | None => None
  | Some st =>
      if Nat.ltb 0 (f_important st) && negb (Nat.eqb (f_important st) (f_count st)) then None
      else
        match all_some (f_vals st) with
        | None => None
        | Some vs =>
            match group_values (sh_keys s) vs with
            | None => None
            | Some r => if is_valid (sh_name s) r then Some (r, Nat.ltb 0 (f_important st)) else None
            end
        end
  end.

(** declaration.rs:329-347 [get] *)
Fixpoint get_loop (i : pid) (ds : list (property * bool)) : option (property * bool) :=
  match ds with
  | [] => None
  | (p, important) :: r =>
      if pid_eqb (prop_id p) i then Some (p, important)
      else match longhand p i with
           | Some v => Some (v, important)
           | None => get_loop i r
           end
  end.
Definition get (b : block) (i : pid) : option (property * bool) :=
  match find_sh i with
  | Some s =>
      match from_longhands s b (sh_prefix i) with
      | Some (vs, important) => Some (PShort i vs, important)
      | None => None
      end
  | None => get_loop i (rev (block_iter b))
  end.
End Valid.

(** ** [set] *)

(** declaration.rs:366, 374: [longhands().unwrap_or_else(|| vec![id])] *)
Definition longhands_or_self (i : pid) : list pid := match longhands i with Some l => l | None => [i] end.
(** declaration.rs:375-383 *)
Definition conflicts (a b : pid) : bool :=
  match logical a, logical b with
  | Some (g, c), Some (g', c') =>
      (if lgroup_dec g g' then true else false) && (if category_dec c c' then false else true)
  | _, _ => false
  end.
Definition conflict (ls : list pid) (d : property) : bool :=
  existsb (fun l => existsb (conflicts l) (longhands_or_self (prop_id d))) ls.

(** declaration.rs:368-397: the loop, on the reversed list; [None] when no declaration is updated *)
Fixpoint set_loop (p : property) (ls : list pid) (rds : list property) : option (list property) :=
  match rds with
  | [] => None
  | d :: r =>
      if conflict ls d then None
      else if pid_eqb (prop_id d) (prop_id p) then Some (p :: r)
      else
        match set_longhand d p with
        | Some d' => Some (d' :: r)
        | None => option_map (cons d) (set_loop p ls r)
        end
  end.
(** declaration.rs:366-399 *)
Definition set_in (p : property) (ds : list property) : list property :=
  match set_loop p (longhands_or_self (prop_id p)) (rev ds) with
  | Some r => rev r
  | None => ds ++ [p]
  end.
Definition drop_id (i : pid) (ds : list property) : list property :=
  filter (fun d => negb (pid_eqb (prop_id d) i)) ds.
(** declaration.rs:354-400 [set] *)
Definition set (b : block) (p : property) (important : bool) : block :=
  if important
  then Block (set_in p (b_important b)) (drop_id (prop_id p) (b_normal b))
  else Block (drop_id (prop_id p) (b_important b)) (set_in p (b_normal b)).

(** ** [remove] *)

Definition mem_id (i : pid) (l : list pid) : bool := existsb (pid_eqb i) l.
Fixpoint filter_map {A B} (f : A -> option B) (l : list A) : list B :=
  match l with
  | [] => []
  | x :: r => match f x with Some y => y :: filter_map f r | None => filter_map f r end
  end.
(** declaration.rs:408-452: what a declaration is replaced with *)
Definition remove_one (i : pid) (d : property) : list property :=
  let ls := match longhands i with Some l => l | None => [] end in
  let id := prop_id d in
  let ids := match longhands id with Some l => l | None => [] end in
  if pid_eqb id i || mem_id id ls then []
  else if match ls with [] => true | _ => false end && mem_id i ids
  then filter_map (fun l => if pid_eqb l i then None else longhand d l) ids
  else [d].
(** declaration.rs:407-456 [remove] *)
Definition remove (b : block) (i : pid) : block :=
  Block (flat_map (remove_one i) (b_important b)) (flat_map (remove_one i) (b_normal b)).
