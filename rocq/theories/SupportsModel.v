(** * Model of [@supports] conditions: src/rules/supports.rs

    The input is a list of component values: tokens, functions and blocks with their contents.
    Whitespace and comments are dropped; a raw slice of the source is the list of its component
    values.  Two kinds of tokens matter besides identifiers: the colon and the error tokens of
    cssparser (bad strings, bad urls, unmatched closing brackets). *)
From Coq Require Import List Bool Arith String.
From Verif Require Import MediaModel VendorPrefixModel.
Import ListNotations.
Local Open Scope string_scope.
Local Open Scope list_scope.

(** cssparser component values *)
Inductive cv :=
| CIdent (s : string)
| CColon
| CBad
| COther (s : string)
| CFun (name : string) (body : list cv)
| CParen (body : list cv)
| CBlock (open : string) (body : list cv).

Fixpoint cv_eqb (a b : cv) {struct a} : bool :=
  let fix eqs (l m : list cv) : bool :=
    match l, m with
    | [], [] => true
    | x :: l', y :: m' => cv_eqb x y && eqs l' m'
    | _, _ => false
    end in
  match a, b with
  | CIdent s, CIdent t => String.eqb s t
  | CColon, CColon => true
  | CBad, CBad => true
  | COther s, COther t => String.eqb s t
  | CFun n l, CFun m k => String.eqb n m && eqs l k
  | CParen l, CParen k => eqs l k
  | CBlock n l, CBlock m k => String.eqb n m && eqs l k
  | _, _ => false
  end.
Fixpoint cvs_eqb (l m : list cv) : bool :=
  match l, m with
  | [], [] => true
  | x :: l', y :: m' => cv_eqb x y && cvs_eqb l' m'
  | _, _ => false
  end.

(** cssparser [expect_no_error_token] on the contents of a block: no error token at any depth *)
Fixpoint cv_ok (t : cv) : bool :=
  match t with
  | CBad => false
  | CFun _ b | CParen b | CBlock _ b => forallb cv_ok b
  | _ => true
  end.
Definition no_error (l : list cv) : bool := forallb cv_ok l.

(** supports.rs:100-128 [SupportsCondition]; [Unknown] keeps the component value whose text the
    code slices *)
Inductive scond :=
| SNot (c : scond)
| SAnd (l : list scond)
| SOr (l : list scond)
| SDecl (p : pid) (value : list cv)
| SSelector (sel : list cv)
| SUnknown (t : cv).

(** derived [PartialEq] *)
Fixpoint scond_eqb (a b : scond) {struct a} : bool :=
  let fix eqs (l m : list scond) : bool :=
    match l, m with
    | [], [] => true
    | x :: l', y :: m' => scond_eqb x y && eqs l' m'
    | _, _ => false
    end in
  match a, b with
  | SNot c, SNot d => scond_eqb c d
  | SAnd l, SAnd m => eqs l m
  | SOr l, SOr m => eqs l m
  | SDecl p v, SDecl q w => pid_eqb p q && cvs_eqb v w
  | SSelector s, SSelector t => cvs_eqb s t
  | SUnknown t, SUnknown u => cv_eqb t u
  | _, _ => false
  end.

(** supports.rs:132-140 [and] *)
Definition s_and (a b : scond) : scond :=
  match a with
  | SAnd l => if existsb (scond_eqb b) l then a else SAnd (l ++ [b])
  | _ => if scond_eqb a b then a else SAnd [a; b]
  end.
(** supports.rs:143-151 [or] *)
Definition s_or (a b : scond) : scond :=
  match a with
  | SOr l => if existsb (scond_eqb b) l then a else SOr (l ++ [b])
  | _ => if scond_eqb a b then a else SOr [a; b]
  end.

(** supports.rs:210-216: [and] is 1, [or] is 2 *)
Inductive sop := OpAnd | OpOr.
Definition sop_eqb (a b : sop) : bool :=
  match a, b with OpAnd, OpAnd | OpOr, OpOr => true | _, _ => false end.
Definition sop_of (s : string) : option sop :=
  if ieq s "and" then Some OpAnd else if ieq s "or" then Some OpOr else None.

(** The key of [seen_declarations] (supports.rs:233, 240) *)
Definition skey := (pid * list cv)%type.
Definition skey_eqb (a b : skey) : bool := pid_eqb (fst a) (fst b) && cvs_eqb (snd a) (snd b).
Fixpoint seen_get (k : skey) (m : list (skey * nat)) : option nat :=
  match m with
  | [] => None
  | (k', i) :: r => if skey_eqb k k' then Some i else seen_get k r
  end.

(** [&mut conditions[index]] *)
Fixpoint update_at (i : nat) (f : scond -> scond) (l : list scond) : list scond :=
  match l, i with
  | [], _ => []
  | x :: r, 0 => f x :: r
  | x :: r, S i' => x :: update_at i' f r
  end.

Section Parse.
Variable table : list entry.

(** supports.rs:237-255: adding a parsed operand to the list *)
Definition add_operand (c : scond) (conds : list scond) (seen : list (skey * nat))
  : list scond * list (skey * nat) :=
  match c with
  | SDecl p v =>
      let p' := pid_with_prefix p (vs_one Unprefixed) in
      match seen_get (p', v) seen with
      | Some i =>
          (update_at i (fun cur => match cur with
                                   | SDecl q w => SDecl (pid_add_prefix q (pid_prefix p')) w
                                   | _ => cur
                                   end) conds, seen)
      | None => (conds ++ [SDecl p' v], ((p', v), List.length conds) :: seen)
      end
  | _ => (conds ++ [c], seen)
  end.

(** supports.rs:230-235: the first operand enters the list when a second one is found *)
Definition start_operands (first : scond) : list scond * list (skey * nat) :=
  ([first],
   match first with
   | SDecl p v => [((pid_with_prefix p (vs_one Unprefixed), v), 0)]
   | _ => []
   end).

(** supports.rs:206-259: the loop.  The input is the rest of the component values, each with the
    result of [parse_in_parens] on it ([parse_in_parens] consumes exactly one component value).
    [expected] is assigned inside the closure, before the operand is parsed, and stays assigned
    when the operand fails. *)
Fixpoint parse_loop (first : scond) (expected : option sop) (conds : list scond)
    (seen : list (skey * nat)) (l : list (cv * option scond))
  : option sop * list scond * list (cv * option scond) :=
  match l with
  | (CIdent s, _) :: rest =>
      match sop_of s with
      | None => (expected, conds, l)
      | Some o =>
          if match expected with Some e => negb (sop_eqb e o) | None => false end
          then (expected, conds, l)
          else
            match rest with
            | (_, Some c) :: rest' =>
                let (conds0, seen0) := match conds with
                                       | [] => start_operands first
                                       | _ => (conds, seen)
                                       end in
                let (conds1, seen1) := add_operand c conds0 seen0 in
                parse_loop first (Some o) conds1 seen1 rest'
            | _ => (Some o, conds, l)
            end
      end
  | _ => (expected, conds, l)
  end.

(** supports.rs:194-271 [parse], returning the remaining input *)
Definition parse_scond (l : list (cv * option scond)) : option (scond * list (cv * option scond)) :=
  let operands :=
    match l with
    | (_, Some first) :: rest =>
        let '(expected, conds, rest') := parse_loop first None [] [] rest in
        Some (match conds with
              | [c] => c
              | _ => match expected with
                     | Some OpAnd => SAnd conds
                     | Some OpOr => SOr conds
                     | None => first
                     end
              end, rest')
    | _ => None
    end in
  match l with
  | (CIdent s, _) :: rest =>
      if ieq s "not" then
        match rest with
        | (_, Some c) :: rest' => Some (SNot c, rest')
        | _ => None
        end
      else operands
  | _ => operands
  end.

(** supports.rs:317-329 [parse_declaration]: the value extends to the end of the block *)
Definition parse_sdecl (l : list cv) : option scond :=
  match l with
  | CIdent name :: CColon :: value =>
      if no_error value then Some (SDecl (pid_from table name) value) else None
  | _ => None
  end.

(** supports.rs:274-315 [parse_in_parens] on one component value.  [parse_nested_block] fails
    unless the whole block is consumed. *)
Fixpoint parse_in_parens (t : cv) : option scond :=
  match t with
  | CFun f body =>
      if ieq f "selector" && no_error body then Some (SSelector body)
      else if no_error body then Some (SUnknown t) else None
  | CParen body =>
      let res :=
        match parse_scond (map (fun x => (x, parse_in_parens x)) body) with
        | Some (c, []) => Some c
        | Some (_, _ :: _) => None
        | None => parse_sdecl body
        end in
      match res with
      | Some c => Some c
      | None => if no_error body then Some (SUnknown t) else None
      end
  | _ => None
  end.

(** supports.rs:195 [parse] on the prelude of [@supports], which must be consumed entirely *)
Definition parse_supports (l : list cv) : option scond :=
  match parse_scond (map (fun x => (x, parse_in_parens x)) l) with
  | Some (c, []) => Some c
  | _ => None
  end.

End Parse.

(** supports.rs:331-338 [needs_parens] *)
Definition needs_parens (c parent : scond) : bool :=
  match c with
  | SNot _ => true
  | SAnd _ => match parent with SAnd _ => false | _ => true end
  | SOr _ => match parent with SOr _ => false | _ => true end
  | _ => false
  end.

(** Writing a list with a separator *)
Fixpoint join (sep : list cv) (l : list (list cv)) : list cv :=
  match l with
  | [] => []
  | [x] => x
  | x :: r => x ++ sep ++ join sep r
  end.

(** supports.rs:340-353, 355-426 [to_css] *)
Fixpoint print_scond (c : scond) : list cv :=
  let child x := if needs_parens x c then [CParen (print_scond x)] else print_scond x in
  match c with
  | SNot x => CIdent "not" :: child x
  | SAnd l => join [CIdent "and"] (map child l)
  | SOr l => join [CIdent "or"] (map child l)
  | SDecl p v =>
      let prefix := vs_or_none (pid_prefix p) in
      let decl q := (CIdent (pfx_text q ++ pid_name p)%string :: CColon :: v) in
      if vs_eqb prefix (vs_one Unprefixed)
      then [CParen (decl Unprefixed)]
      else [CParen (join [CIdent "or"] (map (fun q => [CParen (decl q)]) (vs_iter prefix)))]
  | SSelector s => [CFun "selector" s]
  | SUnknown t => [t]
  end.

(** supports.rs:171-191 [get_supported_features] and targets.rs:183-191 [try_union_all]; a set of
    features is a list, [features] gives those of a declaration's value *)
Section Features.
Variable feature : Type.
Variable features : list cv -> list feature.

Fixpoint supported_features_opt (c : scond) : option (list feature) :=
  match c with
  | SAnd l =>
      fold_left (fun a x => match a with
                            | None => None
                            | Some s => option_map (fun t => s ++ t) (supported_features_opt x)
                            end) l (Some [])
  | SDecl _ v => Some (features v)
  | SNot _ | SOr _ => None
  | SSelector _ | SUnknown _ => Some []
  end.
Definition supported_features (c : scond) : list feature :=
  match supported_features_opt c with Some s => s | None => [] end.
End Features.
