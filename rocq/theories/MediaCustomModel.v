(** * Model of custom media queries: src/media_query.rs [process_condition] and its callers *)
From Coq Require Import List String Bool.
From Verif Require Import MediaModel.
Import ListNotations.
Open Scope string_scope.
Open Scope list_scope.

(** rules/custom_media.rs:14-24 [CustomMediaRule]: name and definition (location dropped) *)
Definition custom_rule := (string * mlist)%type.

(** stylesheet.rs:238-244: the table is built with [HashMap::insert] over the top-level rules in
    source order, so a later rule with the same name replaces an earlier one.  The table is kept
    as an association list, newest first. *)
Definition table := list custom_rule.
Definition build_table (rules : list custom_rule) : table :=
  fold_left (fun m r => r :: m) rules [].
Fixpoint table_get (m : table) (s : string) : option mlist :=
  match m with
  | [] => None
  | (k, v) :: r => if String.eqb k s then Some v else table_get r s
  end.

(** error.rs [MinifyErrorKind]: CustomMediaNotDefined, CircularCustomMedia,
    UnsupportedCustomMediaBooleanLogic *)
Inductive cmerr := ENotDefined (s : string) | ECircular (s : string) | EUnsupported.
Inductive pres := POk (used : bool) | PErr (e : cmerr).

(** The media type and qualifier of the query being processed, mutated through [&mut]. *)
Definition cstate := (media_type * option qualifier)%type.

(** media_query.rs:1786-1797: [conditions.retain_mut] over the operands of an operation.  The last
    error wins; an operand is kept when its result is [Ok(true)]. *)
Fixpoint pc_operands (f : cstate -> cond -> option (cstate * cond * pres))
         (st : cstate) (cs : list cond) (res : pres) : option (cstate * list cond * pres) :=
  match cs with
  | [] => Some (st, [], res)
  | c :: r =>
      match f st c with
      | None => None
      | Some (st1, c1, POk used) =>
          match pc_operands f st1 r res with
          | None => None
          | Some (st2, cs2, res2) => Some (st2, if used then c1 :: cs2 else cs2, res2)
          end
      | Some (st1, c1, PErr e) => pc_operands f st1 r (PErr e)
      end
  end.

(** media_query.rs:1818-1860: the [filter_map] over the queries of the definition *)
Fixpoint pc_queries (f : cstate -> cond -> option (cstate * cond * pres))
         (st : cstate) (qs : mlist) (res : pres) : option (cstate * list cond * pres) :=
  match qs with
  | [] => Some (st, [], res)
  | q :: r =>
      let go (st : cstate) (res : pres) :=
        match mq_cond q with
        | None => pc_queries f st r res
        | Some c =>
            match f st c with
            | None => None
            | Some (st1, c1, rc) =>
                let res1 := match rc with PErr e => PErr e | POk _ => res end in
                match pc_queries f st1 r res1 with
                | None => None
                | Some (st2, cs2, res2) => Some (st2, c1 :: cs2, res2)
                end
            end
        end in
      if mtype_eqb (mq_type q) MAll && oqualifier_eqb (mq_qual q) None then go st res
      else
        let (ty, qu) := st in
        if mtype_eqb ty MAll then
          if oqualifier_eqb qu (Some QNot) then pc_queries f st r (POk false)
          else go (mq_type q, mq_qual q) res
        else if negb (mtype_eqb (mq_type q) ty) || negb (oqualifier_eqb (mq_qual q) qu) then
          pc_queries f st r (PErr EUnsupported)
        else go st res
  end.

(** media_query.rs:1758-1884 [process_condition].  [n] is fuel ([None] = out of fuel, excluded in
    the theorems); [seen] is restored before every return, so it is passed down only. *)
Fixpoint process_condition (n : nat) (m : table) (seen : list string) (st : cstate) (c : cond)
  : option (cstate * cond * pres) :=
  match n with
  | O => None
  | S n' =>
      match c with
      | CNot d =>
          match process_condition n' m seen st d with
          | None => None
          | Some (st1, d1, PErr e) => Some (st1, CNot d1, PErr e)
          | Some ((ty, qu), d1, POk false) =>
              Some ((ty, if oqualifier_eqb qu (Some QNot) then None else Some QNot),
                    CNot d1, POk false)
          | Some (st1, d1, POk true) =>
              match d1 with
              | CNot x => Some (st1, x, POk true)
              | _ => Some (st1, CNot d1, POk true)
              end
          end
      | COp op cs =>
          match pc_operands (process_condition n' m seen) st cs (POk true) with
          | None => None
          | Some (st1, cs1, res) => Some (st1, COp op cs1, res)
          end
      | CFeature (FBoolean (NCustom s)) =>
          if existsb (String.eqb s) seen then Some (st, c, PErr (ECircular s))
          else
            match table_get m s with
            | None => Some (st, c, PErr (ENotDefined s))
            | Some qs =>
                match pc_queries (process_condition n' m (s :: seen)) st qs (POk true) with
                | None => None
                | Some (st1, cs, PErr e) => Some (st1, c, PErr e)
                | Some (st1, cs, POk _) =>
                    match cs with
                    | [] => Some (st1, c, POk false)
                    | [x] => Some (st1, x, POk true)
                    | _ => Some (st1, COp Or cs, POk true)
                    end
                end
            end
      | _ => Some (st, c, POk true)
      end
  end.

(** Enough fuel: the nesting of the condition plus, for every definition, the largest nesting of
    any definition. *)
Fixpoint cond_nest (c : cond) : nat :=
  match c with
  | CNot d => S (cond_nest d)
  | COp _ cs => S (fold_right (fun c k => Nat.max (cond_nest c) k) O cs)
  | _ => 1
  end.
Definition query_nest (q : mquery) : nat :=
  match mq_cond q with Some c => cond_nest c | None => 0 end.
Definition list_nest (l : mlist) : nat := fold_right (fun q k => Nat.max (query_nest q) k) O l.
Definition table_nest (m : table) : nat :=
  fold_right (fun r k => Nat.max (list_nest (snd r)) k) O m.
Definition custom_fuel (m : table) (c : cond) : nat :=
  S (cond_nest c + List.length m * S (table_nest m)).

Inductive cmres (A : Type) := CmOk (a : A) | CmErr (e : cmerr) | CmFuel.
Arguments CmOk {A}. Arguments CmErr {A}. Arguments CmFuel {A}.

(** media_query.rs:318-337 [MediaQuery::transform_custom_media] *)
Definition transform_custom_query (m : table) (q : mquery) : cmres mquery :=
  match mq_cond q with
  | None => CmOk q
  | Some c =>
      match process_condition (custom_fuel m c) m [] (mq_type q, mq_qual q) c with
      | None => CmFuel
      | Some (_, _, PErr e) => CmErr e
      | Some ((ty, qu), c1, POk used) => CmOk (MQ qu ty (if used then Some c1 else None))
      end
  end.

(** media_query.rs:84-93 [MediaList::transform_custom_media] *)
Fixpoint transform_custom_list (m : table) (l : mlist) : cmres mlist :=
  match l with
  | [] => CmOk []
  | q :: r =>
      match transform_custom_query m q with
      | CmOk q1 =>
          match transform_custom_list m r with
          | CmOk r1 => CmOk (q1 :: r1)
          | CmErr e => CmErr e
          | CmFuel => CmFuel
          end
      | CmErr e => CmErr e
      | CmFuel => CmFuel
      end
  end.
