(** * Model of the bundler: src/bundler.rs

    Simplifications.  Parsing is abstracted: a file is a list of top-level rules in which only
    [@import], [@layer] statements and the [composes] references of other rules are visible.
    Resolution depends only on the specifier and the importing file, so import rules carry the
    resolved target.  Source locations, source maps and custom at-rule parsers are dropped.
    Media lists and supports conditions are parameters with their operations. *)
From Coq Require Import List Bool Arith String.
Import ListNotations.

Definition path := nat.
(** [LayerName]: dotted name *)
Definition layer_name := list string.
Definition lname_eqb (a b : layer_name) : bool :=
  if list_eq_dec string_dec a b then true else false.
(** [Option<Option<LayerName>>]: no layer, anonymous layer, named layer *)
Definition import_layer := option (option layer_name).
Definition olname_eqb (a b : option layer_name) : bool :=
  match a, b with
  | None, None => true
  | Some x, Some y => lname_eqb x y
  | _, _ => false
  end.

(** bundler.rs:103-111 [ResolveResult], or a resolver error *)
Inductive target := TFile (p : path) | TExternal (url : string) | TError.

(** bundler.rs:93-97 [Dependency] *)
Inductive dep := DFile (n : nat) | DExternal (url : string).

Section Bundle.
Variables (M S : Type).
(** rules/import.rs [ImportRule]: the conditions of an import *)
Record conds := Conds { c_media : M; c_supports : option S; c_layer : import_layer }.

(** The top-level rules of a parsed file.  [SRule id composes]: any other rule, with the files it
    refers to with [composes ... from] or dashed references (bundler.rs:555-605). *)
Inductive srule :=
| SImport (t : target) (c : conds)
| SLayer (names : list layer_name)
| SIgnored
| SRule (id : nat) (composes : list target).

(** Operations of [MediaList] and [SupportsCondition] used by the bundler *)
Variable m_empty : M.
Variable m_is_empty : M -> bool.          (* media_queries.is_empty() *)
Variable m_and : M -> M -> option M.      (* MediaList::and; None is Err *)
Variable m_or : M -> M -> M.              (* MediaList::or *)
Variable s_and s_or : S -> S -> S.        (* SupportsCondition::and, ::or *)

(** [SourceProvider::read] followed by parsing; [None] is an error *)
Variable read : path -> option (list srule).
(** [options.css_modules.is_some()] *)
Variable css_modules : bool.

(** ** Phase 1: loading *)

(** bundler.rs:80-90 [BundleStyleSheet], without dependencies, which are recomputed below *)
Record sheet := Sheet { sh_path : path; sh_conds : conds; sh_rules : list srule }.

Definition no_conds : conds := Conds m_empty None None.

(** bundler.rs:365-410: a file that is already known *)
Definition merge_conds (entry rule : conds) : option conds :=
  let some_supports (c : conds) := match c_supports c with Some _ => true | None => false end in
  if (negb (m_is_empty (c_media rule)) && some_supports entry)
     || (negb (m_is_empty (c_media entry)) && some_supports rule)
  then None
  else
    let media :=
      if m_is_empty (c_media rule) then m_empty
      else if negb (m_is_empty (c_media entry)) then m_or (c_media entry) (c_media rule)
      else c_media entry in
    let supports :=
      match c_supports rule with
      | Some s => match c_supports entry with Some e => Some (s_or e s) | None => None end
      | None => None
      end in
    match c_layer rule with
    | Some layer =>
        match c_layer entry with
        | Some existing =>
            if negb (olname_eqb layer existing)
               || (match layer, existing with None, None => true | _, _ => false end)
            then None
            else Some (Conds media supports (c_layer entry))
        | None => Some (Conds media supports (c_layer rule))
        end
    | None => Some (Conds media supports (c_layer entry))
    end.

(** bundler.rs:823-835 [combine_supports] *)
Definition combine_supports (a b : option S) : option S :=
  match a with
  | Some a => match b with Some b => Some (s_and a b) | None => Some a end
  | None => b
  end.

(** bundler.rs:502-525: the layer of a nested import; [None] is an error *)
Definition combine_layer (rule import : import_layer) : option import_layer :=
  let some {A} (o : option A) := match o with Some _ => true | None => false end in
  let anon (o : import_layer) := match o with Some None => true | _ => false end in
  if (anon rule && some import) || (anon import && some rule) then None
  else
    match rule with
    | Some (Some a) =>
        match import with
        | Some (Some b) => Some (Some (Some (a ++ b)))
        | _ => Some (Some (Some a))
        end
    | _ => Some import
    end.

(** bundler.rs:487-538: the conditions of a nested import *)
Definition nested_conds (rule import : conds) : option conds :=
  match m_and (c_media rule) (c_media import) with
  | None => None
  | Some media =>
      match combine_layer (c_layer rule) (c_layer import) with
      | None => None
      | Some layer => Some (Conds media (combine_supports (c_supports rule) (c_supports import)) layer)
      end
  end.

(** A pending call of [load_file] *)
Record call := Call { call_file : path; call_rule : conds }.

(** bundler.rs:469-553: the calls made for the imports of a file, or an error *)
Fixpoint import_calls (rule : conds) (rs : list srule) : option (list call) :=
  match rs with
  | [] => Some []
  | SImport t c :: r =>
      match nested_conds rule c with
      | None => None
      | Some c' =>
          match t with
          | TFile p => option_map (cons (Call p c')) (import_calls rule r)
          | TExternal _ => import_calls rule r
          | TError => None
          end
      end
  | _ :: r => import_calls rule r
  end.

(** bundler.rs:555-605, 615-666 [add_css_module_dep]: the calls made for [composes]; an external
    target is an error *)
Fixpoint target_calls (rule : conds) (ts : list target) : option (list call) :=
  match ts with
  | [] => Some []
  | TFile p :: r => option_map (cons (Call p rule)) (target_calls rule r)
  | _ :: _ => None
  end.
Fixpoint composes_of (rs : list srule) : list target :=
  match rs with
  | [] => []
  | SRule _ ts :: r => ts ++ composes_of r
  | _ :: r => composes_of r
  end.

(** bundler.rs:475-482: [@layer] statements get the parent layer's name in front *)
Definition prefix_layer (rule : conds) (r : srule) : srule :=
  match r, c_layer rule with
  | SLayer names, Some (Some parent) => SLayer (map (fun n => parent ++ n) names)
  | _, _ => r
  end.

(** The shared state: [stylesheets] in index order ([source_indexes] maps a path to its position),
    and the calls that have been started but not yet taken the lock. *)
Record lstate := LState { l_sheets : list sheet; l_todo : list call }.

Fixpoint update_sheet (p : path) (c : conds) (l : list sheet) : list sheet :=
  match l with
  | [] => []
  | s :: r => if Nat.eqb (sh_path s) p then Sheet p c (sh_rules s) :: r else s :: update_sheet p c r
  end.
Definition find_sheet (p : path) (l : list sheet) : option sheet :=
  find (fun s => Nat.eqb (sh_path s) p) l.

(** bundler.rs:361-613 [load_file], for the call at position [k] of the pending calls: the section
    under the lock, then reading and starting the nested calls.  [None] when some error is
    returned, which makes [bundle] fail.  Reading and parsing use no shared state, so running them
    in the same step loses no schedule; the nested calls are run later, in any order (the code
    starts the calls for [composes] after those for [@import], which is one such order). *)
Definition load_step (st : lstate) (k : nat) : option lstate :=
  match nth_error (l_todo st) k with
  | None => None
  | Some (Call file rule) =>
      let todo := firstn k (l_todo st) ++ skipn (1 + k) (l_todo st) in
      match find_sheet file (l_sheets st) with
      | Some entry =>
          match merge_conds (sh_conds entry) rule with
          | Some c => Some (LState (update_sheet file c (l_sheets st)) todo)
          | None => None
          end
      | None =>
          match read file with
          | None => None
          | Some rs =>
              match import_calls rule rs, (if css_modules then target_calls rule (composes_of rs) else Some []) with
              | Some a, Some b =>
                  Some (LState (l_sheets st ++ [Sheet file rule (map (prefix_layer rule) rs)])
                               (todo ++ a ++ b))
              | _, _ => None
              end
          end
      end
  end.

(** A schedule is the list of positions chosen. *)
Fixpoint load_run (sched : list nat) (st : lstate) : option lstate :=
  match sched with
  | [] => Some st
  | k :: r => match load_step st k with Some st' => load_run r st' | None => None end
  end.
(** bundler.rs:286-300: the call for the entry file *)
Definition load_init (entry : path) : lstate := LState [] [Call entry no_conds].
(** A successful load under some schedule *)
Definition loads (entry : path) (sched : list nat) (sheets : list sheet) : Prop :=
  load_run sched (load_init entry) = Some (LState sheets []).

(** ** Phases 2 and 3, on any numbering of the files *)
Section Order.
(** the sheet with index 0 *)
Variable entry : nat.
(** [css_modules_deps], [dependencies], rules and conditions of each sheet *)
Variable css : nat -> list nat.
Variable deps : nat -> list dep.
Variable rules : nat -> list srule.
Variable conds_of : nat -> conds.

Definition mem (n : nat) (l : list nat) : bool := existsb (Nat.eqb n) l.
(** [parent_source_index], [parent_dep_index] of every sheet (initially 0 and 0) and the set
    [visited] *)
Record ostate := OState { o_parent : nat -> nat * nat; o_visited : list nat }.
Definition set_parent (d s : nat) (k : nat) (st : ostate) : ostate :=
  OState (fun x => if Nat.eqb x d then (s, k) else o_parent st x) (o_visited st).

(** bundler.rs:682-695: the loop over [css_modules_deps] *)
Fixpoint order_css (rec : nat -> ostate -> option ostate) (s : nat) (k : nat) (l : list nat) (st : ostate)
  : option ostate :=
  match l with
  | [] => Some st
  | d :: r =>
      if mem d (o_visited st) then order_css rec s (k + 1) r st
      else match rec d (set_parent d s k st) with
           | Some st' => order_css rec s (k + 1) r st'
           | None => None
           end
  end.
(** bundler.rs:697-709: the loop over [dependencies] *)
Fixpoint order_deps (rec : nat -> ostate -> option ostate) (s : nat) (k : nat) (l : list dep) (st : ostate)
  : option ostate :=
  match l with
  | [] => Some st
  | DExternal _ :: r => order_deps rec s k r st
  | DFile d :: r =>
      match rec d (set_parent d s k st) with
      | Some st' => order_deps rec s (k + 1) r st'
      | None => None
      end
  end.
(** bundler.rs:668-711 [order]'s [process]; [n] is fuel *)
Fixpoint order_process (n : nat) (s : nat) (st : ostate) : option ostate :=
  match n with
  | O => None
  | Datatypes.S n' =>
      if mem s (o_visited st) then Some st
      else
        let st1 := OState (o_parent st) (s :: o_visited st) in
        match order_css (order_process n') s 0 (css s) st1 with
        | None => None
        | Some st2 => order_deps (order_process n') s (List.length (css s)) (deps s) st2
        end
  end.
Definition order (n : nat) : option ostate :=
  order_process n entry (OState (fun _ => (entry, 0)) []).

(** What is appended to the bundle: an external import, a layer statement, or the remaining rules
    of a sheet, wrapped in the conditions (bundler.rs:788-815).  [src] is the sheet it comes from;
    it is not in the code and only used to state properties. *)
Inductive item :=
| OImport (src : nat) (url : string) (c : conds)
| OLayer (src : nat) (names : list layer_name)
| OBody (src : nat) (w : conds) (rs : list srule).

(** The mutable parts of the sheets during [inline]: whose rules have been taken, whose conditions
    have been taken; and the output *)
Record istate := IState { i_taken : list nat; i_wrapped : list nat; i_out : list item }.
Inductive ires := IOk (st : istate) | IErr | IFuel.

Variable parent : nat -> nat * nat.
Definition is_parent (d s : nat) (k : nat) : bool :=
  Nat.eqb (fst (parent d)) s && Nat.eqb (snd (parent d)) k.

(** bundler.rs:726-738: hoisting css modules dependencies *)
Fixpoint inline_css (rec : nat -> istate -> ires) (s : nat) (k : nat) (l : list nat) (st : istate) : ires :=
  match l with
  | [] => IOk st
  | d :: r =>
      if is_parent d s k then
        match rec d st with IOk st' => inline_css rec s (k + 1) r st' | e => e end
      else inline_css rec s (k + 1) r st
  end.
Definition push (x : item) (st : istate) : istate :=
  IState (i_taken st) (i_wrapped st) (i_out st ++ [x]).

(** bundler.rs:740-786: the loop over the leading rules; returns the rules with the handled ones
    replaced by [Ignored].  [ds] are the dependencies from [import_index] on. *)
Fixpoint inline_rules (rec : nat -> istate -> ires) (s : nat) (k : nat) (bundled : bool)
         (ds : list dep) (rs : list srule) (st : istate) : ires * list srule :=
  match rs with
  | [] => (IOk st, [])
  | SImport t c :: r =>
      match ds with
      | [] => (IErr, rs)     (* index out of bounds: cannot happen, see the proofs *)
      | DFile d :: ds' =>
          if is_parent d s k then
            match rec d st with
            | IOk st' =>
                let (res, r') := inline_rules rec s (k + 1) true ds' r st' in (res, SIgnored :: r')
            | e => (e, rs)
            end
          else
            let (res, r') := inline_rules rec s (k + 1) bundled ds' r st in (res, SIgnored :: r')
      | DExternal url :: ds' =>
          if bundled then (IErr, rs)
          else
            let (res, r') := inline_rules rec s k bundled ds' r (push (OImport s url c) st) in
            (res, SIgnored :: r')
      end
  | SLayer names :: r =>
      let (res, r') := inline_rules rec s k bundled ds r (push (OLayer s names) st) in
      (res, SIgnored :: r')
  | SIgnored :: r =>
      let (res, r') := inline_rules rec s k bundled ds r st in (res, SIgnored :: r')
  | SRule _ _ :: _ => (IOk st, rs)
  end.

(** bundler.rs:713-821 [inline]'s [process] *)
Fixpoint inline_process (n : nat) (s : nat) (st : istate) : ires :=
  match n with
  | O => IFuel
  | Datatypes.S n' =>
      let rs := if mem s (i_taken st) then [] else rules s in
      let st1 := IState (s :: i_taken st) (i_wrapped st) (i_out st) in
      match inline_css (inline_process n') s 0 (css s) st1 with
      | IOk st2 =>
          match inline_rules (inline_process n') s (List.length (css s)) false (deps s) rs st2 with
          | (IOk st3, rs') =>
              let w := if mem s (i_wrapped st3) then no_conds else conds_of s in
              IOk (IState (i_taken st3) (s :: i_wrapped st3) (i_out st3 ++ [OBody s w rs']))
          | (e, _) => e
          end
      | e => e
      end
  end.
Definition inline (n : nat) : ires := inline_process n entry (IState [] [] []).
End Order.

(** ** All phases *)

(** [dependencies] and [css_modules_deps] of a sheet (bundler.rs:469-613): every load of a
    file returns its index *)
Fixpoint index_of (p : path) (l : list sheet) : option nat :=
  match l with
  | [] => None
  | s :: r => if Nat.eqb (sh_path s) p then Some 0 else option_map Datatypes.S (index_of p r)
  end.
(** a target that is not loaded does not occur after a successful load; 0 is arbitrary *)
Definition index (l : list sheet) (p : path) : nat := match index_of p l with Some i => i | None => 0 end.
Fixpoint deps_of (f : path -> nat) (rs : list srule) : list dep :=
  match rs with
  | [] => []
  | SImport (TFile p) _ :: r => DFile (f p) :: deps_of f r
  | SImport (TExternal u) _ :: r => DExternal u :: deps_of f r
  | _ :: r => deps_of f r
  end.
Fixpoint css_deps_of (f : path -> nat) (ts : list target) : list nat :=
  match ts with
  | [] => []
  | TFile p :: r => f p :: css_deps_of f r
  | _ :: r => css_deps_of f r
  end.
Definition nth_rules (l : list sheet) (i : nat) : list srule :=
  match nth_error l i with Some s => sh_rules s | None => [] end.
Definition sheet_deps (l : list sheet) (i : nat) : list dep := deps_of (index l) (nth_rules l i).
Definition sheet_css (l : list sheet) (i : nat) : list nat :=
  if css_modules then css_deps_of (index l) (composes_of (nth_rules l i)) else [].
Definition sheet_conds (l : list sheet) (i : nat) : conds :=
  match nth_error l i with Some s => sh_conds s | None => no_conds end.

(** bundler.rs:282-311 [bundle] after loading; [n] is fuel for both phases *)
Definition bundle_sheets (n : nat) (l : list sheet) : ires :=
  match order 0 (sheet_css l) (sheet_deps l) n with
  | None => IFuel
  | Some st =>
      inline 0 (sheet_css l) (sheet_deps l) (nth_rules l) (sheet_conds l) (o_parent st) n
  end.
End Bundle.
