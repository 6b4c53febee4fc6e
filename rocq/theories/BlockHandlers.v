(** * The handlers of a declaration block that are modelled one by one in other files, together *)
From Coq Require Import List Bool PeanoNat.
From Verif Require SideModel ShortModel.
From Verif Require Import PrefixModel BlockModel.
Import ListNotations.

Section Handlers.
(** Parsed values, the tokens of unparsed values, [@supports] conditions.  Simplification: the values
    of all properties have one type. *)
Variable V R Cond : Type.

(** Declarations: of five families of box sides, of three shorthands with the macro
    [shorthand_handler!], of two pairs, of the properties of the fallback handler ([true]) and the
    prefix handler ([false]), and of properties without a handler *)
Inductive prop :=
| Sides (f : nat) (d : SideModel.sdecl V R)
| Short (f : nat) (d : ShortModel.decl V R)
| Pairs (f : nat) (d : ShortModel.decl V R)
| Prefixed (h : bool) (k : nat) (v : V) (s : pset)
| PrefixedRaw (h : bool) (k : nat) (u : R) (s : pset)
| Free (n : nat) (u : R).
Notation decl := (decl prop R).
Notation handler := (handler prop R Cond).

(** A handler that only pushes: [step] and [fin] return what they push to the block and to other
    rules *)
Definition pushed {D} (wrap : D -> prop) (out : list D) : list decl := map (fun d => Plain (wrap d)) out.
Definition ruled {D} (wrap : D -> prop) (x : list (place Cond * D)) : rules prop R Cond := map (fun r => (fst r, Plain (wrap (snd r)))) x.
Definition pusher {S D} (start : S) (view : prop -> option D) (wrap : D -> prop)
    (step : S -> D -> S * list D * list (place Cond * D)) (fin : S -> S * list D * list (place Cond * D)) : handler :=
  Handler S start
    (fun s ds a =>
       match view a with
       | Some d => let '(s', out, x) := step s d in Some (s', ds ++ pushed wrap out, ruled wrap x)
       | None => None
       end)
    (fun s ds => let '(s', out, x) := fin s in (s', ds ++ pushed wrap out, ruled wrap x)).

(** What the handlers know of the targets *)
Record config := Config {
  veq : V -> V -> bool;
  compat : V -> bool;
  (** [should_compile_logical] of the families of sides (margin_padding.rs:290-302) *)
  logical : nat -> bool;
  block : nat -> bool;
  (** [get_fallbacks] of values and of tokens *)
  fallbacks : V -> list V * V;
  raw_fallbacks : R -> list (Cond * R) * R;
  two_values : bool;
  prefix_targets : targets;
  has_prefix : nat -> bool
}.
Variable c : config.

(** margin_padding.rs:407-506: margin, padding, scroll-margin, scroll-padding, inset *)
Definition shorthand_category (f : nat) : SideModel.category := if Nat.eqb f 4 then SideModel.Logical else SideModel.Physical.
Definition dir_rules (e : list (SideModel.event V R)) : list (place Cond * SideModel.sdecl V R) :=
  flat_map (fun x => match x with SideModel.Main _ => [] | SideModel.Dir l r => [(Ltr, l); (Rtl, r)] end) e.
Definition sides (f : nat) : handler :=
  pusher (SideModel.State (SideModel.none_phys V) (SideModel.none_log V R) false SideModel.Physical)
    (fun a => match a with Sides g d => if Nat.eqb f g then Some d else None | _ => None end)
    (Sides f)
    (fun s d => let (s', e) := SideModel.handle V R (veq c) (compat c) (shorthand_category f) (logical c f) (block c f) s d in
                (s', SideModel.mains e, dir_rules e))
    (fun s => let (s', e) := SideModel.flush V R (veq c) (shorthand_category f) (logical c f) (block c f) s in
              (s', SideModel.mains e, dir_rules e)).

(** outline.rs:57-61, list.rs:460-464, contain.rs:159-162 *)
Definition width (f : nat) : nat := match f with 0 | 1 => 3 | _ => 2 end.
Definition fallback_key (f : nat) : option nat := match f with 0 => Some 2 | 1 => Some 0 | _ => None end.
Definition if_rules (e : list (ShortModel.event V R Cond)) : list (place Cond * ShortModel.decl V R) :=
  map (fun p => (If (fst p), snd p)) (ShortModel.supports e).
Definition short (f : nat) : handler :=
  pusher ShortModel.start
    (fun a => match a with Short g d => if Nat.eqb f g then Some d else None | _ => None end)
    (Short f)
    (fun s d => let (s', e) := ShortModel.handle V R Cond (width f) (compat c) (fallback_key f) (fallbacks c) (raw_fallbacks c) s d in
                (s', ShortModel.mains e, if_rules e))
    (fun s => let (s', e) := ShortModel.flush V R Cond (width f) (fallback_key f) (fallbacks c) s in
              (ShortModel.State (ShortModel.slots s') (fun _ => false) (ShortModel.has_any s'), ShortModel.mains e, if_rules e)).

(** The gap part of align.rs, and overflow.rs:74-136; the gap properties need no test *)
Definition pairs (f : nat) : handler :=
  pusher (ShortModel.Pair None None)
    (fun a => match a with Pairs g d => if Nat.eqb f g then Some d else None | _ => None end)
    (Pairs f)
    (fun s d => let (s', o) := ShortModel.pair_handle V R (veq c) (match f with 0 => true | _ => two_values c end) s d in (s', o, []))
    (fun s => (ShortModel.Pair None None, ShortModel.pair_finalize V R (veq c) (match f with 0 => true | _ => two_values c end) s, [])).

(** prefix_handler.rs:21-57.  The indices are those of the list that all handlers share. *)
Definition slot (k i : nat) (f : nat -> option nat) : nat -> option nat := fun j => if Nat.eqb k j then Some i else f j.
Definition push_prefixed (s : nat -> option nat) (ds : list decl) (k : nat) (v : V) (p : pset) : (nat -> option nat) * list decl * rules prop R Cond :=
  (slot k (length ds) s, ds ++ [Plain (Prefixed false k v (prefixes (prefix_targets c) p k))], []).
Definition prefix : handler :=
  Handler (nat -> option nat) (fun _ => None)
    (fun s ds a =>
       match a with
       | Prefixed false k v p =>
           match s k with
           | Some i =>
               match nth_error ds i with
               | Some (Plain (Prefixed false k' cur ps)) =>
                   if Nat.eqb k' k && (veq c v cur || includes ps p) then
                     Some (s, replace ds i (Plain (Prefixed false k v (prefixes (prefix_targets c) (union ps p) k))), [])
                   else Some (push_prefixed s ds k v p)
               | _ => Some (push_prefixed s ds k v p)
               end
           | None => Some (push_prefixed s ds k v p)
           end
       | _ => None
       end)
    (fun s ds => (s, ds, [])).

(** prefix_handler.rs:93-166.  Simplification: unparsed values need no [@supports] rules. *)
Definition fallback : handler :=
  Handler (nat -> option nat) (fun _ => None)
    (fun s ds a =>
       match a with
       | Prefixed true k v p =>
           let p := if has_prefix c k then prefixes (prefix_targets c) p k else p in
           match s k with
           | None =>
               let (l, v') := fallbacks c v in
               let p' := if has_prefix c k && negb (match l with [] => true | _ => false end) && none p then single NoPrefix else p in
               let ds' := ds ++ map (fun x => Plain (Prefixed true k x p)) l in
               Some (slot k (length ds') s, ds' ++ [Plain (Prefixed true k v' p')], [])
           | Some i =>
               if compat c v then Some (s, replace ds i (Plain (Prefixed true k v p)), [])
               else Some (slot k (length ds) s, ds ++ [Plain (Prefixed true k v p)], [])
           end
       | PrefixedRaw true k u p =>
           let d := Plain (PrefixedRaw true k u (if has_prefix c k && none p then prefixes (prefix_targets c) p k else p)) in
           match s k with
           | Some i => Some (s, replace ds i d, [])
           | None => Some (slot k (length ds) s, ds ++ [d], [])
           end
       | _ => None
       end)
    (fun s ds => (fun _ => None, ds, [])).

(** The order of declaration.rs:543-575 *)
Definition all_handlers : list handler :=
  [short 0; pairs 0; sides 0; sides 1; sides 2; sides 3; short 1; sides 4; pairs 1; short 2; fallback; prefix].
Definition fresh : list (running prop R Cond) := map (fun h => Running h (hstart h)) all_handlers.
End Handlers.
Arguments Sides {V R}. Arguments Short {V R}. Arguments Pairs {V R}. Arguments Prefixed {V R}. Arguments PrefixedRaw {V R}. Arguments Free {V R}.
Arguments pushed {V R D}. Arguments ruled {V R Cond D}. Arguments pusher {V R Cond S D}. Arguments Config {V R Cond}.
Arguments veq {V R Cond}. Arguments compat {V R Cond}. Arguments logical {V R Cond}. Arguments block {V R Cond}. Arguments fallbacks {V R Cond}.
Arguments raw_fallbacks {V R Cond}. Arguments two_values {V R Cond}. Arguments prefix_targets {V R Cond}. Arguments has_prefix {V R Cond}.
Arguments sides {V R Cond}. Arguments short {V R Cond}. Arguments pairs {V R Cond}. Arguments prefix {V R Cond}. Arguments fallback {V R Cond}.
Arguments all_handlers {V R Cond}. Arguments fresh {V R Cond}. Arguments dir_rules {V R Cond}. Arguments if_rules {V R Cond}. Arguments push_prefixed {V R Cond}.

(** rules/mod.rs:524-525, stylesheet.rs:230-252: one set of handlers for the normal declarations of all
    rules, and one for the important ones *)
Section After.
Context {A R Cond : Type}.
Variable unused : nat -> bool.
Variable req : R -> R -> bool.
Variable raw_fallbacks : R -> list (Cond * R) * R.
Fixpoint after (hs : list (running A R Cond)) (history : list (context * list (decl A R))) : list (running A R Cond) :=
  match history with
  | [] => hs
  | (ctx, l) :: r => after (fst (fst (minify ctx unused req raw_fallbacks hs l))) r
  end.
End After.
(** A block after other blocks, given by their normal and important declarations *)
Definition minify_after {V R Cond} (c : config V R Cond) (unused : nat -> bool) (req : R -> R -> bool)
    (history history_important : list (context * list (decl (prop V R) R))) (ctx : context) (normal important : list (decl (prop V R) R)) : minified (prop V R) R Cond :=
  let hs h := after unused req (raw_fallbacks c) (fresh c) h in
  minify_block ctx unused req (raw_fallbacks c) (hs history) (hs history_important) normal important.
