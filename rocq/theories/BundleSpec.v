(** * What a bundle should contain: independent specification

    Only the data types of the model are used here, none of its functions, except that a
    successful run is described with [loads] and [bundle_sheets] in the theorems themselves. *)
From Coq Require Import List Bool Arith String.
From Verif Require Import BundleModel MediaModel.
Import ListNotations.

Arguments SImport {M S}. Arguments SLayer {M S}. Arguments SIgnored {M S}. Arguments SRule {M S}.
Arguments Conds {M S}. Arguments c_media {M S}. Arguments c_supports {M S}. Arguments c_layer {M S}.
Arguments Sheet {M S}. Arguments sh_path {M S}. Arguments sh_conds {M S}. Arguments sh_rules {M S}.
Arguments LState {M S}. Arguments l_sheets {M S}. Arguments l_todo {M S}.
Arguments Call {M S}. Arguments call_file {M S}. Arguments call_rule {M S}.
Arguments OImport {M S}. Arguments OLayer {M S}. Arguments OBody {M S}.
Arguments IState {M S}. Arguments i_taken {M S}. Arguments i_wrapped {M S}. Arguments i_out {M S}.
Arguments IOk {M S}. Arguments IErr {M S}. Arguments IFuel {M S}.

Section Spec.
Context {M S : Type}.
Notation srule := (srule M S).
Notation conds := (conds M S).
Notation item := (item M S).
Variable read : path -> option (list srule).
Variable css_modules : bool.

(** ** The import graph *)
(** [imports s] : the files imported by [s], with the conditions of each import, in order *)
Fixpoint imports_in (rs : list srule) : list (path * conds) :=
  match rs with
  | [] => []
  | SImport (TFile p) c :: r => (p, c) :: imports_in r
  | _ :: r => imports_in r
  end.
Definition imports (s : path) : list (path * conds) :=
  match read s with Some rs => imports_in rs | None => [] end.
(** the files [s] refers to with [composes ... from] *)
Fixpoint files (ts : list target) : list path :=
  match ts with [] => [] | TFile p :: r => p :: files r | _ :: r => files r end.
Definition composes (s : path) : list path :=
  if css_modules then
    match read s with
    | Some rs => files (flat_map (fun r => match r with SRule _ ts => ts | _ => [] end) rs)
    | None => []
    end
  else [].
Definition imports_file (s d : path) : Prop := exists c, In (d, c) (imports s).
Definition refers (s d : path) : Prop := imports_file s d \/ In d (composes s).
Inductive reach (p : path) : path -> Prop :=
| R_refl : reach p p
| R_step s d : reach p s -> refers s d -> reach p d.
(** [d] is reached from [s] in one or more steps *)
Definition below (s d : path) : Prop := exists m, refers s m /\ reach m d.

(** The parser rejects [@import] after other rules (parser.rs:278), but does not count unknown
    at-rules as such. *)
Fixpoint no_imports (rs : list srule) : Prop :=
  match rs with [] => True | SImport _ _ :: _ => False | _ :: r => no_imports r end.
Fixpoint imports_lead (rs : list srule) : Prop :=
  match rs with
  | [] => True
  | SRule _ _ :: r => no_imports r
  | _ :: r => imports_lead r
  end.

(** ** What a bundle contains of a file *)
(** All rules in the bundle that come from [p], in order *)
Fixpoint rules_from (p : path) (name : nat -> option path) (out : list item) : list srule :=
  match out with
  | [] => []
  | it :: r =>
      (match it with
       | OImport s u c => if match name s with Some q => Nat.eqb q p | None => false end
                          then [SImport (TExternal u) c] else []
       | OLayer s ns => if match name s with Some q => Nat.eqb q p | None => false end then [SLayer ns] else []
       | OBody s _ rs => if match name s with Some q => Nat.eqb q p | None => false end
                         then filter (fun r => match r with SIgnored => false | _ => true end) rs else []
       end) ++ rules_from p name r
  end.
(** The rules of a file that should be in the bundle: all but the bundled imports. *)
Definition own_rules (rs : list srule) : list srule :=
  filter (fun r => match r with SImport (TFile _) _ => false | SIgnored => false | _ => true end) rs.

(** The layer statements of a file imported into a named layer get its name as prefix. *)
Definition in_layer (l : import_layer) (rs : list srule) : list srule :=
  map (fun r => match r, l with
                | SLayer ns, Some (Some parent) => SLayer (map (fun n => parent ++ n) ns)
                | _, _ => r
                end) rs.

(** ** Order *)
(** The files in the order in which a browser applies their rules: every [@import] is replaced by
    the contents of the file.  There is a derivation only if the imports are not cyclic. *)
Inductive expands : path -> list path -> Prop :=
| X_file p l : expands_all (map fst (imports p)) l -> expands p (l ++ [p])
with expands_all : list path -> list path -> Prop :=
| X_nil : expands_all [] []
| X_cons p r l l' : expands p l -> expands_all r l' -> expands_all (p :: r) (l ++ l').
(** Applying a file again later overrides everything in between, so only the last occurrence
    counts: [nodup] keeps it. *)
Definition browser_order (l : list path) : list path := nodup Nat.eq_dec l.
(** The files in the order of their rules in the bundle *)
Fixpoint body_order (name : nat -> option path) (out : list item) : list path :=
  match out with
  | [] => []
  | OBody s _ _ :: r => (match name s with Some p => [p] | None => [] end) ++ body_order name r
  | _ :: r => body_order name r
  end.
(** [p] is imported by two import rules of files reached from [entry]. *)
Definition shared (entry p : path) : Prop :=
  exists s1 k1 s2 k2, reach entry s1 /\ reach entry s2 /\ (s1, k1) <> (s2, k2)
    /\ nth_error (map fst (imports s1)) k1 = Some p /\ nth_error (map fst (imports s2)) k2 = Some p.

(** ** Conditions *)
(** [chain entry p cs]: a chain of import statements from [entry] to [p], with their conditions.
    A file reached by [composes] has the conditions of the composing file. *)
Inductive chain (entry : path) : path -> list conds -> Prop :=
| Ch_entry : chain entry entry []
| Ch_import p q c cs : chain entry p cs -> In (q, c) (imports p) -> chain entry q (cs ++ [c])
| Ch_composes p q cs : chain entry p cs -> In q (composes p) -> chain entry q cs.
(** in an environment given by its effect on media lists and supports conditions *)
Definition applies (me : M -> bool) (se : S -> bool) (c : conds) : bool :=
  me (c_media c) && match c_supports c with Some s => se s | None => true end.
Definition chain_applies me se (cs : list conds) : bool := forallb (applies me se) cs.
(** the layer named by a chain *)
Fixpoint chain_layer (cs : list conds) : list string :=
  match cs with
  | [] => []
  | c :: r => match c_layer c with Some (Some n) => n | _ => [] end ++ chain_layer r
  end.
(** some import of the chain has a layer *)
Definition layered (cs : list conds) : bool :=
  existsb (fun c => match c_layer c with Some _ => true | None => false end) cs.
(** the layer of a file reached by a chain without anonymous layers *)
Definition layer_of_chain (cs : list conds) : import_layer :=
  if layered cs then Some (Some (chain_layer cs)) else None.
Definition anonymous (cs : list conds) : Prop := exists c, In c cs /\ c_layer c = Some None.
End Spec.

(** Operations on media lists and supports conditions that are exact in an environment, for the
    lists in [dom] *)
Record exact_ops {M S} (m_empty : M) (m_is_empty : M -> bool) (m_and : M -> M -> option M) (m_or : M -> M -> M)
       (s_and s_or : S -> S -> S) (dom : M -> Prop) (me : M -> bool) (se : S -> bool) : Prop := {
  x_empty : dom m_empty /\ m_is_empty m_empty = true;
  x_is_empty : forall m, m_is_empty m = true -> me m = true;
  x_and : forall a b r, dom a -> dom b -> m_and a b = Some r -> dom r /\ me r = me a && me b;
  x_or : forall a b, m_is_empty a = false -> m_is_empty b = false -> me (m_or a b) = me a || me b;
  x_sand : forall a b, se (s_and a b) = se a && se b;
  x_sor : forall a b, se (s_or a b) = se a || se b }.

(** ** Cycles *)
Section Graph.
Context {M S : Type}.
Variable read : path -> option (list (srule M S)).
Variable css_modules : bool.
(** a path of references none of whose files is [entry] *)
Inductive reach_avoiding (entry p : path) : path -> Prop :=
| RA_refl : p <> entry -> reach_avoiding entry p p
| RA_step s d : reach_avoiding entry p s -> refers read css_modules s d -> d <> entry -> reach_avoiding entry p d.
(** every cycle with an [@import] goes through the entry file *)
Definition no_import_cycle (entry : path) : Prop :=
  forall p q, reach read css_modules entry p -> imports_file read p q -> ~ reach_avoiding entry q p.
Definition acyclic (entry : path) : Prop := forall p, reach read css_modules entry p -> ~ below read css_modules p p.
(** the files named by the rules of [s] *)
Definition refs (s : path) : list path := map fst (imports read s) ++ composes read css_modules s.
(** [q] is named by two rules of the files reached from [entry], or named by one and is [entry] *)
Definition named_twice (entry q : path) : Prop :=
  exists ps a b c, NoDup ps /\ Forall (reach read css_modules entry) ps
    /\ entry :: flat_map refs ps = a ++ q :: b ++ q :: c.
End Graph.

(** ** Observing a bundle *)
Definition sheet_name {M S} (l : list (sheet M S)) (i : nat) : option path := option_map sh_path (nth_error l i).
Inductive content (M S : Type) :=
| EImport (url : string) (c : conds M S)
| ELayer (names : list layer_name)
| EBody (w : conds M S) (rs : list (srule M S)).
Arguments EImport {M S}. Arguments ELayer {M S}. Arguments EBody {M S}.
(** the emitted contents with the file each comes from *)
Definition emitted {M S} (name : nat -> option path) (it : item M S) : option path * content M S :=
  match it with
  | OImport s u c => (name s, EImport u c)
  | OLayer s ns => (name s, ELayer ns)
  | OBody s w rs => (name s, EBody w rs)
  end.
Inductive outcome (A : Type) := Bundled (a : A) | Failed | Running.
Arguments Bundled {A}. Arguments Failed {A}. Arguments Running {A}.
Definition observe {M S} (l : list (sheet M S)) (r : ires M S) : outcome (list (option path * content M S)) :=
  match r with
  | IOk st => Bundled (map (emitted (sheet_name l)) (i_out st))
  | IErr => Failed
  | IFuel => Running
  end.

(** ** Layer order *)
(** The order of layers is that of the first occurrence of their names. *)
Fixpoint firsts (seen l : list layer_name) : list layer_name :=
  match l with
  | [] => []
  | n :: r => if in_dec (list_eq_dec string_dec) n seen then firsts seen r else n :: firsts (n :: seen) r
  end.
Definition layer_statements {M S} (rs : list (srule M S)) : list layer_name :=
  flat_map (fun r => match r with SLayer ns => ns | _ => [] end) rs.
Definition browser_layers {M S} (read : path -> option (list (srule M S))) (l : list path) : list layer_name :=
  firsts [] (flat_map (fun p => match read p with Some rs => layer_statements rs | None => [] end) l).
Definition bundle_layers {M S} (out : list (item M S)) : list layer_name :=
  firsts [] (flat_map (fun it => match it with OLayer _ ns => ns | OBody _ _ rs => layer_statements rs | _ => [] end) out).

(** ** Media lists *)
(** no query, or one query without qualifier, for all media or for media of type [t] *)
Definition one_type (t : media_type) (l : mlist) : Prop :=
  l = [] \/ exists q, l = [q] /\ mq_qual q = None /\ (mq_type q = MAll \/ mq_type q = t).
Definition mlist_empty (l : mlist) : bool := match l with [] => true | _ => false end.
