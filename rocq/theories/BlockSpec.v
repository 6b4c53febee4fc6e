(** * What a declaration block means (CSS Cascade), and what a handler may do in one *)
From Coq Require Import List Bool PeanoNat.
From Verif Require Import BlockModel.
Import ListNotations.

Section Values.
Variable A R : Type.

(** What a property is given: nothing, the keyword or the tokens of [all], or something of its own *)
Inductive given (C : Type) := Nothing | Keyword (kw : nat) | Tokens (u : R) | Given (c : C).
Arguments Nothing {C}. Arguments Keyword {C}. Arguments Tokens {C}. Arguments Given {C}.

(** The last declaration that gives something wins; [o] is what stood before.  [gives] says what
    an ordinary declaration gives to the longhand in question. *)
Definition used_step {C} (gives : A -> option C) (o : given C) (d : decl A R) : given C :=
  match d with
  | Plain a => match gives a with Some c => Given c | None => o end
  | All kw => Keyword kw
  | Unparsed SAll u => Tokens u
  | _ => o
  end.
Definition used_from {C} (gives : A -> option C) (o : given C) (l : list (decl A R)) : given C :=
  fold_left (used_step gives) l o.
(** [all] does not change [direction], [unicode-bidi] and custom properties *)
Definition direction_from (o : given nat) (l : list (decl A R)) : given nat :=
  fold_left (fun o d => match d with Direction v => Given v | Unparsed SDirection u => Tokens u | _ => o end) l o.
Definition bidi_from (o : given nat) (l : list (decl A R)) : given nat :=
  fold_left (fun o d => match d with Bidi v => Given v | Unparsed SBidi u => Tokens u | _ => o end) l o.
(** [value] is what the tokens of a custom property mean *)
Definition custom_from {X} (value : R -> X) (name : nat) (o : option X) (l : list (decl A R)) : option X :=
  fold_left (fun o d => match d with Custom n u => if Nat.eqb n name then Some (value u) else o | _ => o end) l o.

(** The declarations that are no unparsed [direction], [unicode-bidi] or [all] *)
Definition parsed (p : special) (d : decl A R) : Prop := match d with Unparsed q _ => q <> p | _ => True end.
(** What stands after the last [all], of the properties in [O] *)
Fixpoint segment (O : A -> bool) (acc : list A) (l : list (decl A R)) : list A :=
  match l with
  | [] => acc
  | Plain a :: r => segment O (if O a then acc ++ [a] else acc) r
  | All _ :: r => segment O [] r
  | _ :: r => segment O acc r
  end.

(** Declarations of the properties in [O], with or without [all] *)
Definition mine (O : A -> bool) (d : decl A R) : bool := match d with Plain a => O a | _ => false end.
Definition kept (O : A -> bool) (d : decl A R) : bool := match d with Plain a => O a | All _ => true | _ => false end.
(** The second list has more declarations at the end, and others replaced, but those in [K] are the
    same at the same places *)
Inductive apart (K : decl A R -> bool) : list (decl A R) -> list (decl A R) -> Prop :=
| apart_end l : Forall (fun d => K d = false) l -> apart K [] l
| apart_same d l m : apart K l m -> apart K (d :: l) (d :: m)
| apart_other d e l m : K d = false -> K e = false -> apart K l m -> apart K (d :: l) (e :: m).
End Values.
Arguments Nothing {R C}. Arguments Keyword {R C}. Arguments Tokens {R C}. Arguments Given {R C}.
Arguments used_step {A R C}. Arguments used_from {A R C}. Arguments direction_from {A R}. Arguments bidi_from {A R}. Arguments custom_from {A R X}. Arguments parsed {A R}.
Arguments segment {A R}. Arguments mine {A R}. Arguments kept {A R}. Arguments apart {A R}.

(** A handler that minds its own business: it handles only declarations of the properties in [owns],
    writes only such declarations, and does the same whatever other declarations are in the list.
    [like s ds s' ds'] says that the state [s] with the list [ds] is like the state [s'] with the list
    [ds'] of its own declarations only. *)
Record part (A R Cond : Type) := Part {
  owns : A -> bool;
  of : handler A R Cond;
  (** between two blocks *)
  idle : hstate of -> Prop;
  like : hstate of -> list (decl A R) -> hstate of -> list (decl A R) -> Prop;
  start_idle : idle (hstart of);
  like_idle : forall s, idle s -> like s [] s [];
  like_start : forall ds, like (hstart of) ds (hstart of) (filter (kept owns) ds);
  like_filter : forall s ds s' ds', like s ds s' ds' -> ds' = filter (kept owns) ds;
  like_apart : forall s ds s' ds' e, like s ds s' ds' -> apart (kept owns) ds e -> like s e s' ds';
  ignores : forall s ds a, owns a = false -> hhandle of s ds a = None;
  handles : forall s ds s' ds' a, like s ds s' ds' -> owns a = true ->
    match hhandle of s ds a, hhandle of s' ds' a with
    | Some (t, e, x), Some (t', e', x') =>
        like t e t' e' /\ apart (fun d => negb (mine owns d)) ds e /\ x = x' /\ Forall (fun r => mine owns (snd r) = true) x
    | None, None => like s (ds ++ [Plain a]) s' (ds' ++ [Plain a])
    | _, _ => False
    end;
  finishes : forall s ds s' ds', like s ds s' ds' ->
    let '(t, e, x) := hfinish of s ds in let '(t', e', x') := hfinish of s' ds' in
    like t e t' e' /\ apart (fun d => negb (mine owns d)) ds e /\ x = x' /\ Forall (fun r => mine owns (snd r) = true) x /\ idle t
}.
Arguments owns {A R Cond}. Arguments of {A R Cond}. Arguments idle {A R Cond}. Arguments like {A R Cond}. Arguments start_idle {A R Cond}.
Arguments like_idle {A R Cond}. Arguments like_start {A R Cond}. Arguments like_filter {A R Cond}. Arguments like_apart {A R Cond}.
Arguments ignores {A R Cond}. Arguments handles {A R Cond}. Arguments finishes {A R Cond}.

Section Parts.
Variable A R Cond : Type.
(** No two handlers own the same property *)
Definition separate (ps : list (part A R Cond)) : Prop :=
  forall i j p q a, nth_error ps i = Some p -> nth_error ps j = Some q -> owns p a = true -> owns q a = true -> i = j.
(** The handlers between two blocks *)
Definition ready (ps : list (part A R Cond)) (hs : list (running A R Cond)) : Prop :=
  Forall2 (fun p h => exists s, h = Running (of p) s /\ idle p s) ps hs.
(** A handler alone, which starts in the state [s] with the list [ds] *)
Fixpoint steps (h : handler A R Cond) (s : hstate h) (ds : list (decl A R)) (l : list A) : hstate h * list (decl A R) * rules A R Cond :=
  match l with
  | [] => (s, ds, [])
  | a :: r =>
      match hhandle h s ds a with
      | Some (s1, ds1, x) => let '(s2, ds2, y) := steps h s1 ds1 r in (s2, ds2, x ++ y)
      | None => steps h s (ds ++ [Plain a]) r
      end
  end.
Definition alone (h : handler A R Cond) (s : hstate h) (ds : list (decl A R)) (l : list A) : list (decl A R) * rules A R Cond :=
  let '(s1, ds1, x) := steps h s ds l in let '(_, ds2, y) := hfinish h s1 ds1 in (ds2, x ++ y).
(** Alone, it keeps what the longhand gets from the declarations [l] if it adds no rules *)
Definition keeps {C} (p : part A R Cond) (gives : A -> option C) (l : list A) : Prop :=
  forall s ds o, (idle p s /\ ds = [] \/ s = hstart (of p) /\ exists kw, ds = [All kw]) ->
    snd (alone (of p) s ds l) = [] ->
    used_from gives o (fst (alone (of p) s ds l)) = used_from gives o (ds ++ map Plain l).
End Parts.
Arguments separate {A R Cond}. Arguments ready {A R Cond}. Arguments steps {A R Cond}. Arguments alone {A R Cond}. Arguments keeps {A R Cond C}.
