(** * What a list of rules means to one element in one browser

    Written from CSS Cascade 5, CSS Nesting and CSS Animations, without reference to the minifier. *)
From Coq Require Import List Bool String PeanoNat NArith.
From Verif Require Import MinifyModel.
Import ListNotations.
Local Open Scope list_scope.

(** A rule inside others sees the selectors of the style rules around it, as printed, and the scopes. *)
Inductive frame := FStyle (p : option prefix) (s : list nat) | FWrap (k : wrapper).

(** One element in one browser.  [matches p ctx s]: the specificity of selector [s], printed with the
    prefix [p] ([None]: as written) inside [ctx], if it matches the element.  [known]: the browser can
    read the selector.  [holds]: the condition is true.  [sets d q]: the value that the declaration
    gives to the longhand [q], if the browser can read it and it does.  [frames b]: what the keyframes
    with body [b] do. *)
Record world := {
  matches : option prefix -> list frame -> nat -> option N;
  known : option prefix -> nat -> bool;
  holds : cond -> bool;
  sets : decl -> nat -> option nat;
  frames : nat -> nat
}.

(** ** Selector lists *)
Definition omax (a b : option N) : option N :=
  match a, b with
  | None, x => x
  | x, None => x
  | Some x, Some y => Some (N.max x y)
  end.
(** The highest specificity of the selectors that match; a list with an unknown selector is invalid. *)
Definition list_spec (w : world) (p : option prefix) (ctx : list frame) (ss : list nat) : option N :=
  if forallb (known w p) ss then fold_right omax None (map (matches w p ctx) ss) else None.
(** [&]: the nearest style rule. *)
Fixpoint parent_spec (w : world) (ctx : list frame) : option N :=
  match ctx with
  | [] => None
  | FStyle p ss :: t => list_spec w p t ss
  | FWrap _ :: t => parent_spec w t
  end.

(** ** Events: what the rules of one layer say, in order *)
Inductive event :=
| EDecl (spec : option N) (important : bool) (d : decl)
| EKeyf (name : string) (p : prefix) (does : nat)
| EProp (name : string) (body : nat)
| EOther (id : nat)
| EImport (id : nat).
Definition block_events (spec : option N) (b : block) : list event :=
  map (EDecl spec false) (fst b) ++ map (EDecl spec true) (snd b).

Definition prefixes_of (v : vp) : list prefix :=
  (if v_none v then [PNone] else []) ++ (if v_webkit v then [PWebKit] else []) ++ (if v_moz v then [PMoz] else [])
  ++ (if v_ms v then [PMs] else []) ++ (if v_o v then [PO] else []).
(** src/rules/style.rs 219-239: a style rule is printed once for each of its prefixes. *)
Definition printings (v : vp) : list (option prefix) :=
  match prefixes_of v with [] => [None] | l => map Some l end.

(** ** Layers: a tree whose children are in the order of their first appearance *)
Inductive tree := Node (own : list event) (subs : list (option string * tree)).
Definition bare : tree := Node [] [].
Definition say (e : list event) (t : tree) : tree := let 'Node o s := t in Node (o ++ e) s.
Fixpoint at_layer (n : string) (f : tree -> tree) (subs : list (option string * tree)) : list (option string * tree) :=
  match subs with
  | [] => [(Some n, f bare)]
  | (Some m, t) :: r => if (m =? n)%string then (Some m, f t) :: r else (Some m, t) :: at_layer n f r
  | (None, t) :: r => (None, t) :: at_layer n f r
  end.
Fixpoint at_path (path : lname) (f : tree -> tree) (t : tree) : tree :=
  match path with
  | [] => f t
  | n :: p => let 'Node o s := t in Node o (at_layer n (at_path p f) s)
  end.

(** ** A rule is added to the tree *)
Fixpoint add (w : world) (ctx : list frame) (r : rule) (t : tree) {struct r} : tree :=
  let adds := fix adds (ctx : list frame) (l : list rule) (t : tree) {struct l} : tree :=
    match l with [] => t | r :: l' => adds ctx l' (add w ctx r t) end in
  match r with
  | Style s nested =>
    fold_left (fun t p => adds (FStyle p (sels s) :: ctx) nested (say (block_events (list_spec w p ctx (sels s)) (blk s)) t))
              (printings (vpx s)) t
  | NestedDecls b => say (block_events (parent_spec w ctx) b) t
  | Cond q l => if holds w q then adds ctx l t else t
  | Wrap k l => adds (FWrap k :: ctx) l t
  | LayerB (Some path) l => at_path path (adds ctx l) t
  | LayerB None l => let 'Node o s := t in Node o (s ++ [(None, adds ctx l bare)])
  | LayerS names => fold_left (fun t path => at_path path (fun t => t) t) names t
  | Keyf name p body => say (map (fun x => EKeyf name x (frames w body)) (prefixes_of p)) t
  | Prop_ name body => say [EProp name body] t
  | Import layer id =>
    match layer with
    | None => say [EImport id] t
    | Some (Some path) => at_path path (say [EImport id]) t
    | Some None => let 'Node o s := t in Node o (s ++ [(None, Node [EImport id] [])])
    end
  | Other id => say [EOther id] t
  | Ignored => t
  end.
Fixpoint adds (w : world) (ctx : list frame) (l : list rule) (t : tree) : tree :=
  match l with [] => t | r :: l' => adds w ctx l' (add w ctx r t) end.
(** The meaning of a style sheet. *)
Definition sheet (w : world) (l : list rule) : tree := adds w [] l bare.

(** ** The cascade *)
(** Of two candidates the more specific one, or else the later one. *)
Definition join (a b : option (N * nat)) : option (N * nat) :=
  match a, b with
  | x, None => x
  | None, y => y
  | Some (s, v), Some (s', v') => if (s <=? s')%N then Some (s', v') else Some (s, v)
  end.
Definition candidate (w : world) (q : nat) (imp : bool) (e : event) : option (N * nat) :=
  match e with
  | EDecl (Some s) i d => if Bool.eqb i imp then match sets w d q with Some v => Some (s, v) | None => None end else None
  | _ => None
  end.
Definition best (w : world) (q : nat) (imp : bool) (l : list event) : option (N * nat) :=
  fold_right (fun e r => join (candidate w q imp e) r) None l.

Definition orelse {A} (a b : option A) : option A := match a with Some _ => a | None => b end.
(** For what is not important, rules outside of layers win, then later layers. *)
Fixpoint late {A} (f : list event -> option A) (t : tree) : option A :=
  let 'Node o s := t in
  orelse (f o) (fold_left (fun r x => orelse (late f (snd x)) r) s None).
(** For important declarations it is the other way round. *)
Fixpoint early {A} (f : list event -> option A) (t : tree) : option A :=
  let 'Node o s := t in
  orelse (fold_right (fun x r => orelse (early f (snd x)) r) None s) (f o).
(** The value that longhand [q] gets. *)
Definition cascaded (w : world) (q : nat) (t : tree) : option nat :=
  option_map snd (orelse (early (best w q true) t) (late (best w q false) t)).

(** ** Keyframes, registered properties, other rules *)
Definition prefix_eqb (a b : prefix) : bool :=
  match a, b with PNone, PNone | PWebKit, PWebKit | PMoz, PMoz | PMs, PMs | PO, PO => true | _, _ => false end.
Fixpoint last_some {A B} (f : A -> option B) (l : list A) : option B :=
  match l with [] => None | x :: t => orelse (last_some f t) (f x) end.
Definition keyframes_of (name : string) (p : prefix) (t : tree) : option nat :=
  late (last_some (fun e => match e with EKeyf n x b => if (n =? name)%string && prefix_eqb x p then Some b else None | _ => None end)) t.
Definition registered (name : string) (t : tree) : option nat :=
  late (last_some (fun e => match e with EProp n b => if (n =? name)%string then Some b else None | _ => None end)) t.
Definition other_events (l : list event) : list event :=
  filter (fun e => match e with EOther _ | EImport _ => true | _ => false end) l.
(** The other rules with the layer they are in. *)
Fixpoint others (path : list (option string)) (t : tree) : list (list (option string) * list event) :=
  let 'Node o s := t in
  (match other_events o with [] => [] | l => [(path, l)] end) ++ flat_map (fun x => others (path ++ [fst x]) (snd x)) s.
(** The layers with a name, in the order of the cascade. *)
Fixpoint layers (path : list (option string)) (t : tree) : list (list (option string)) :=
  let 'Node _ s := t in
  flat_map (fun x => (match fst x with Some _ => [path ++ [fst x]] | None => [] end) ++ layers (path ++ [fst x]) (snd x)) s.

(** ** What the parameters of the minifier have to do *)
(** The value a block gives to [q]: of its last declaration that sets it. *)
Definition block_value (w : world) (q : nat) (l : list decl) : option nat := last_some (fun d => sets w d q) l.
Definition no_none (p : option prefix) : option prefix := match p with Some PNone => None | x => x end.
Definition plain_frame (f : frame) : frame := match f with FStyle p s => FStyle (no_none p) s | f => f end.

Record faithful (c : config) (w : world) : Prop := {
  (* blocks keep their values *)
  f_decl : forall b q, block_value w q (fst (mdecl c b)) = block_value w q (fst b)
                       /\ block_value w q (snd (mdecl c b)) = block_value w q (snd b);
  (* declarations of the same property set the same longhands *)
  f_id : forall d d' q, d_id d = d_id d' -> sets w d q = None -> sets w d' q = None;
  f_kf : forall b, frames w (mkf c b) = frames w b;
  f_tr : forall q, holds w (tr c q) = holds w q;
  f_never : forall q, never c q = true -> holds w q = false;
  (* the browser knows the selectors that are compatible *)
  f_compat : forall l p s, compat c l = true -> In s l -> known w p s = true;
  (* printing without a prefix is printing as written: the sheet has no vendor-prefixed selectors *)
  f_plain : forall p ctx s, matches w p ctx s = matches w (no_none p) (map plain_frame ctx) s;
  f_plain_known : forall p s, known w p s = known w (no_none p) s;
  f_equiv : forall l l' p ctx, equiv c l l' = true -> list_spec w p ctx l = list_spec w p ctx l';
  (* rules with unused symbols, and rules inside of them, match nothing *)
  f_unused : forall l p ctx, unused c l = true -> list_spec w p ctx l = None;
  f_unused_inside : forall l p ctx ctx' p' s, unused c l = true -> matches w p' (ctx' ++ FStyle p l :: ctx) s = None
}.

(** No targets: selectors are neither divided nor given prefixes, and none has a vendor prefix. *)
Definition untargeted (c : config) : Prop :=
  compile_sel c = false
  /\ (forall l, split_sels c l = (l, []))
  /\ (forall l, upd_prefix c l = (l, vp_empty) \/ upd_prefix c l = (l, vp_only_none)).

(** ** Sheets for which the minifier is right *)
(** Where a list is: at the top or in a layer; inside conditions or scopes; inside of a style rule. *)
Inductive place := Outer | InCond | InStyle.
Definition plain_vp (v : vp) : Prop := v = vp_empty \/ v = vp_only_none.
(** Layers have simple names and, like keyframes and registered properties, are not inside of conditions or
    style rules; there are no imports; other rules are not inside of style rules. *)
Fixpoint tidy (pl : place) (r : rule) {struct r} : Prop :=
  let all := fix all (pl : place) (l : list rule) {struct l} : Prop :=
    match l with [] => True | r :: l' => tidy pl r /\ all pl l' end in
  match r with
  | Style s nested => sels s <> [] /\ plain_vp (vpx s) /\ all InStyle nested
  | NestedDecls _ | Ignored => True
  | Cond _ l | Wrap _ l => all (match pl with InStyle => InStyle | _ => InCond end) l
  | LayerB None l => pl = Outer /\ all Outer l
  | LayerB (Some n) l => pl = Outer /\ (exists x, n = [x]) /\ all Outer l
  | LayerS names => pl = Outer /\ Forall (fun n => exists x, n = [x]) names
  | Keyf _ _ _ | Prop_ _ _ => pl = Outer
  | Import _ _ => False
  | Other _ => pl <> InStyle
  end.
Fixpoint all_tidy (pl : place) (l : list rule) : Prop :=
  match l with [] => True | r :: l' => tidy pl r /\ all_tidy pl l' end.

(** The number of important declarations of a rule that is removed is that of the rule that replaces it. *)
Definition same_importance (n : note) : Prop :=
  match n with
  | Removed _ _ old _ new => List.length (snd (blk old)) = List.length (snd (blk new))
  | Popped => True
  end.
Definition never_popped (n : log) : Prop := ~ In Popped n.

(** The minifier turns [l] into [l']. *)
Definition minifies (c : config) (l l' : list rule) (n : log) : Prop := exists fuel, minify c fuel false l = Some (l', n).

(** A rule is removed in favour of a later one with the same selectors, whose declarations are of the same
    properties in the same order, as many of them important; and nothing is nested in it. *)
Definition proper (n : note) : Prop :=
  match n with
  | Removed i j old nested new =>
    i <> j /\ nested = [] /\ sels old = sels new
    /\ map d_id (fst (blk old) ++ snd (blk old)) = map d_id (fst (blk new) ++ snd (blk new))
    /\ List.length (snd (blk old)) = List.length (snd (blk new))
  | Popped => True
  end.
