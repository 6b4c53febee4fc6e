(** * The handler of borders (src/properties/border.rs:470-1369), with that of border images (src/properties/border_image.rs:286-545).
    Simplifications: values of all longhands are of one type; what [add_unparsed_fallbacks] does to unparsed values, vendor prefixes and
    fallbacks of border images, and border-radius, which has a handler of its own, are left out. *)
From Coq Require Import List Bool.
From Verif Require Import SideModel.
Import ListNotations.

Inductive key := Width | Style | Color.
Inductive ikey := Source | Slice | ImageWidth | Outset | Repeat.
Inductive place := P (s : side) | L (l : lside).
Inductive axis := Block | Inline.
Definition key_eqb (a b : key) : bool := match a, b with Width, Width | Style, Style | Color, Color => true | _, _ => false end.
Definition ikey_eqb (a b : ikey) : bool :=
  match a, b with Source, Source | Slice, Slice | ImageWidth, ImageWidth | Outset, Outset | Repeat, Repeat => true | _, _ => false end.
Definition place_eqb (a b : place) : bool := match a, b with P s, P t => side_eqb s t | L s, L t => lside_eqb s t | _, _ => false end.
Definition start_of (a : axis) : lside := match a with Block => BlockStart | Inline => InlineStart end.
Definition end_of (a : axis) : lside := match a with Block => BlockEnd | Inline => InlineEnd end.

(** The properties: border-top-color and the like, border-top, border-block-color, border-block, border-color, border, and those of images *)
Inductive pid := IOne (p : place) (k : key) | ISide (p : place) | IPair (a : axis) (k : key) | IAxis (a : axis) | IRect (k : key) | IBorder
| IImageOne (i : ikey) | IImage.

Section Values.
(** Values, and tokens of values that are not parsed *)
Variable V R : Type.
Variable veq : V -> V -> bool.
(** [is_compatible] with the targets; true without targets *)
Variable compat : V -> bool.
(** [get_fallbacks] for the colours of one declaration: fallbacks, and what the colours become (border.rs:212-225, 428-468; color.rs:503-522) *)
Variable get_fallbacks : list V -> list (list V) * list V.
(** No [should_compile_logical] for LogicalBorders, LogicalBorderShorthand *)
Variable logical_supported shorthand_supported : bool.

(** [GenericBorder] (border.rs:99-111) *)
Record border := Border3 { b_width : V; b_style : V; b_color : V }.
Definition bget (b : border) (k : key) : V := match k with Width => b_width b | Style => b_style b | Color => b_color b end.
Definition beqb (a b : border) : bool := veq (b_width a) (b_width b) && veq (b_style a) (b_style b) && veq (b_color a) (b_color b).
Inductive decl :=
| DOne (p : place) (k : key) (v : V)
| DSide (p : place) (b : border)
| DPair (a : axis) (k : key) (s e : V)
| DAxis (a : axis) (b : border)
| DRect (k : key) (top right bottom left : V)
| DBorder (b : border)
| DImageOne (i : ikey) (v : V)
| DImage (source slice width outset repeat : V)
| DRaw (i : pid) (u : R).

(** [BorderShorthand] (border.rs:470-501) *)
Definition slot := key -> option V.
Definition empty_slot : slot := fun _ => None.
Definition set_key (k : key) (o : option V) (s : slot) : slot := fun x => if key_eqb k x then o else s x.
Definition of_border (b : border) : slot := fun k => Some (bget b k).
(** [is_valid] and then [to_border] *)
Definition to_border (s : slot) : option border :=
  match s Width, s Style, s Color with Some w, Some st, Some c => Some (Border3 w st c) | _, _, _ => None end.
Definition oeqb (a b : option V) : bool := match a, b with Some a, Some b => veq a b | None, None => true | _, _ => false end.

(** ** What [flush] pushes: border.rs:957-1284.  [full] says whether the sides are logical. *)
Definition canonical (l : lside) : side := match l with BlockStart => Top | BlockEnd => Bottom | InlineStart => Left | InlineEnd => Right end.
Definition at_side (log : bool) (l : lside) : place := if log then L l else P (canonical l).
Definition slots := lside -> slot.

(** [side_diff!] (1048-1066) *)
Definition side_diff (log : bool) (x other : border) (l : lside) : list decl :=
  let eq k := veq (bget x k) (bget other k) in
  let p := at_side log l in
  if eq Width && eq Style then [DOne p Color (b_color other)]
  else if eq Width && eq Color then [DOne p Style (b_style other)]
  else if eq Style && eq Color then [DOne p Width (b_width other)]
  else [DSide p other].
(** 1085-1127 *)
Definition inline_diff (log : bool) (t l r : border) : list decl :=
  let differs k := negb (veq (bget l k) (bget t k)) || negb (veq (bget r k) (bget t k)) in
  let diff := (if differs Width then 1 else 0) + (if differs Style then 1 else 0) + (if differs Color then 1 else 0) in
  let pair k := [DPair Inline k (bget l k) (bget r k)] in
  let handled :=
    if log then
      if Nat.eqb diff 1 then
        if negb (veq (b_width l) (b_width t)) then Some (pair Width)
        else if negb (veq (b_style l) (b_style t)) then Some (pair Style)
        else if negb (veq (b_color l) (b_color t)) then Some (pair Color)
        else None
      else if Nat.ltb 1 diff && beqb l r then Some [DAxis Inline l]
      else None
    else None in
  match handled with
  | Some e => e
  | None => side_diff log t l InlineStart ++ side_diff log t r InlineEnd
  end.
(** 1012-1147: all four sides are complete *)
Definition complete (log : bool) (t b l r : border) : list decl :=
  let is_eq k := veq (bget t k) (bget b k) && veq (bget l k) (bget r k) && veq (bget l k) (bget t k) in
  let rect k := DRect k (bget t k) (bget r k) (bget b k) (bget l k) in
  let prop_diff x fallback with_border :=
    if negb log && is_eq Color && is_eq Style then [DBorder x; rect Width]
    else if negb log && is_eq Width && is_eq Style then [DBorder x; rect Color]
    else if negb log && is_eq Width && is_eq Color then [DBorder x; rect Style]
    else (if with_border : bool then [DBorder x] else []) ++ fallback in
  if beqb t b && beqb t l && beqb t r then [DBorder t]
  else if beqb t b && beqb t l then DBorder t :: side_diff log t r InlineEnd
  else if beqb t b && beqb t r then DBorder t :: side_diff log t l InlineStart
  else if beqb l r && beqb b l then DBorder l :: side_diff log l t BlockStart
  else if beqb l r && beqb t l then DBorder l :: side_diff log l b BlockEnd
  else if beqb t b then prop_diff t (inline_diff log t l r) true
  else if beqb l r then prop_diff l (side_diff log l t BlockStart ++ side_diff log l b BlockEnd) true
  else if beqb b r then prop_diff b (side_diff log b t BlockStart ++ side_diff log b l InlineStart) true
  else prop_diff t [DSide (at_side log BlockStart) t; DSide (at_side log BlockEnd) b;
                    DSide (at_side log InlineStart) l; DSide (at_side log InlineEnd) r] false.
(** [shorthand!] (981-996): the values are taken *)
Definition clear (k : key) (f : slots) (which : lside -> bool) : slots := fun l => if which l then set_key k None (f l) else f l.
Definition rect (log : bool) (k : key) (f : slots) : list decl * slots :=
  match f BlockStart k, f InlineEnd k, f BlockEnd k, f InlineStart k with
  | Some t, Some r, Some b, Some l =>
      if negb log || (veq t b && veq b l && veq l r) then ([DRect k t r b l], clear k f (fun _ => true)) else ([], f)
  | _, _, _, _ => ([], f)
  end.
Definition on_axis (a : axis) (l : lside) : bool := lside_eqb l (start_of a) || lside_eqb l (end_of a).
(** [logical_shorthand!] (998-1010) *)
Definition pair (a : axis) (k : key) (f : slots) : list decl * slots :=
  match f (start_of a) k, f (end_of a) k with
  | Some s, Some e => ([DPair a k s e], clear k f (on_axis a))
  | _, _ => ([], f)
  end.
(** [inline_prop!] (1216-1223) *)
Definition inline_prop (k : key) (f : slots) : list decl * slots :=
  match f InlineStart k, f InlineEnd k with
  | Some s, Some e => if veq s e then ([DOne (P Left) k s; DOne (P Right) k e], clear k f (on_axis Inline)) else ([], f)
  | _, _ => ([], f)
  end.
(** One after the other, for style, width and colour *)
Definition in_turn (g : key -> slots -> list decl * slots) (f : slots) : list decl * slots :=
  let (e1, f) := g Style f in let (e2, f) := g Width f in let (e3, f) := g Color f in (e1 ++ e2 ++ e3, f).
(** [side!] (1153-1171) *)
Definition opt_decl (g : V -> decl) (o : option V) : list decl := match o with Some v => [g v] | None => [] end.
Definition side_props (log : bool) (l : lside) (f : slots) : list decl :=
  let p := at_side log l in
  match to_border (f l) with
  | Some b => [DSide p b]
  | None => opt_decl (DOne p Style) (f l Style) ++ opt_decl (DOne p Width) (f l Width) ++ opt_decl (DOne p Color) (f l Color)
  end.
Definition valid (s : slot) : bool := match to_border s with Some _ => true | None => false end.
(** Both sides of an axis are complete and the same *)
Definition same_border (a : axis) (f : slots) : option border :=
  match to_border (f (start_of a)), to_border (f (end_of a)) with Some x, Some y => if beqb x y then Some x else None | _, _ => None end.
(** 1173-1194 *)
Definition block_props (log : bool) (f : slots) : list decl :=
  match (if log then same_border Block f else None) with
  | Some b =>
      if logical_supported then
        if shorthand_supported then [DAxis Block b] else [DSide (L BlockStart) b; DSide (L BlockEnd) b]
      else [DSide (P Top) b; DSide (P Bottom) b]
  | None =>
      let (e, f) := if log && shorthand_supported && negb (valid (f BlockStart)) && negb (valid (f BlockEnd)) then in_turn (pair Block) f else ([], f) in
      e ++ side_props log BlockStart f ++ side_props log BlockEnd f
  end.
(** 1196-1233 *)
Definition inline_props (log : bool) (f : slots) : list decl :=
  match (if log then same_border Inline f else None) with
  | Some b =>
      if logical_supported then
        if shorthand_supported then [DAxis Inline b] else [DSide (L InlineStart) b; DSide (L InlineEnd) b]
      else [DSide (P Left) b; DSide (P Right) b]
  | None =>
      let (e, f) :=
        if log && negb (valid (f InlineStart)) && negb (valid (f InlineEnd)) then in_turn (if shorthand_supported then pair Inline else inline_prop) f
        else ([], f) in
      e ++ side_props log InlineStart f ++ side_props log InlineEnd f
  end.
Definition category_props (log : bool) (f : slots) : list decl :=
  match to_border (f BlockStart), to_border (f BlockEnd), to_border (f InlineStart), to_border (f InlineEnd) with
  | Some t, Some b, Some l, Some r => complete log t b l r
  | _, _, _, _ => let (e, f) := in_turn (rect log) f in e ++ block_props log f ++ inline_props log f
  end.

(** ** How it is pushed *)
(** To the block, or to the rules for the two directions (context.rs:84-87) *)
Inductive event := Main (d : decl) | Dir (ltr rtl : decl).
(** The longhands of a property: [BorderProperty] (503-551) *)
Definition bit (i : pid) (p : place) (k : key) : bool :=
  match i with
  | IOne q j => place_eqb q p && key_eqb j k
  | ISide q => place_eqb q p
  | IPair a j => (place_eqb (L (start_of a)) p || place_eqb (L (end_of a)) p) && key_eqb j k
  | IAxis a => place_eqb (L (start_of a)) p || place_eqb (L (end_of a)) p
  | IRect j => match p with P _ => key_eqb j k | L _ => false end
  | IBorder => match p with P _ => true | L _ => false end
  | IImageOne _ | IImage => false
  end.
Definition flushed := place -> key -> bool.
Definition insert (i : pid) (fl : flushed) : flushed := fun p k => bit i p k || fl p k.
Definition places : list place := [P Top; P Bottom; P Left; P Right; L BlockStart; L BlockEnd; L InlineStart; L InlineEnd].
Definition contains (i : pid) (fl : flushed) : bool :=
  forallb (fun p => forallb (fun k => implb (bit i p k) (fl p k)) [Width; Style; Color]) places.
Definition id_of (d : decl) : pid :=
  match d with
  | DOne p k _ => IOne p k | DSide p _ => ISide p | DPair a k _ _ => IPair a k | DAxis a _ => IAxis a | DRect k _ _ _ _ => IRect k
  | DBorder _ => IBorder | DImageOne i _ => IImageOne i | DImage _ _ _ _ _ => IImage | DRaw i _ => i
  end.
(** The colours of a declaration, for those that [fallbacks!] is used for (772-783, 785-955) *)
Definition colors (d : decl) : option (list V) :=
  match d with
  | DOne _ Color v => Some [v]
  | DSide _ b | DAxis _ b | DBorder b => Some [b_color b]
  | DPair _ Color s e => Some [s; e]
  | DRect Color t r b l => Some [t; r; b; l]
  | _ => None
  end.
Definition set_color (b : border) (v : V) : border := Border3 (b_width b) (b_style b) v.
Definition with_colors (d : decl) (l : list V) : decl :=
  match d, l with
  | DOne p Color _, [v] => DOne p Color v
  | DSide p b, [v] => DSide p (set_color b v)
  | DAxis a b, [v] => DAxis a (set_color b v)
  | DBorder b, [v] => DBorder (set_color b v)
  | DPair a Color _ _, [s; e] => DPair a Color s e
  | DRect Color _ _ _ _, [t; r; b; l] => DRect Color t r b l
  | _, _ => d
  end.
(** [push!], [fallbacks!] (765-783) *)
Definition push (fl : flushed) (d : decl) : flushed * list event :=
  let last d := (insert (id_of d) fl, [Main d]) in
  match colors d with
  | Some l =>
      if contains (id_of d) fl then last d
      else
        let (pre, l) := get_fallbacks l in
        let (fl, e) := last (with_colors d l) in (fl, map (fun l => Main (with_colors d l)) pre ++ e)
  | None => last d
  end.
(** [prop!] (785-955) *)
Definition prop (fl : flushed) (d : decl) : flushed * list event :=
  if logical_supported then push fl d
  else
    match d with
    | DOne (L InlineStart) k v => (fl, [Dir (DOne (P Left) k v) (DOne (P Right) k v)])
    | DOne (L InlineEnd) k v => (fl, [Dir (DOne (P Right) k v) (DOne (P Left) k v)])
    | DSide (L InlineStart) b => (fl, [Dir (DSide (P Left) b) (DSide (P Right) b)])
    | DSide (L InlineEnd) b => (fl, [Dir (DSide (P Right) b) (DSide (P Left) b)])
    | DOne (L BlockStart) k v => push fl (DOne (P Top) k v)
    | DOne (L BlockEnd) k v => push fl (DOne (P Bottom) k v)
    | DSide (L BlockStart) b => push fl (DSide (P Top) b)
    | DSide (L BlockEnd) b => push fl (DSide (P Bottom) b)
    | _ => push fl d
    end.
Fixpoint props (fl : flushed) (l : list decl) : flushed * list event :=
  match l with [] => (fl, []) | d :: l => let (fl, e) := prop fl d in let (fl, e') := props fl l in (fl, e ++ e') end.
(** [flush_unparsed] (1296-1368) *)
Definition push_raw (fl : flushed) (i : pid) (u : R) : flushed * list event :=
  let as_ i := (insert i fl, [Main (DRaw i u)]) in
  if logical_supported then as_ i
  else
    match i with
    | ISide (L InlineStart) => (fl, [Dir (DRaw (ISide (P Left)) u) (DRaw (ISide (P Right)) u)])
    | ISide (L InlineEnd) => (fl, [Dir (DRaw (ISide (P Right)) u) (DRaw (ISide (P Left)) u)])
    | IOne (L InlineStart) k => (fl, [Dir (DRaw (IOne (P Left) k) u) (DRaw (IOne (P Right) k) u)])
    | IOne (L InlineEnd) k => (fl, [Dir (DRaw (IOne (P Right) k) u) (DRaw (IOne (P Left) k) u)])
    | ISide (L BlockStart) => as_ (ISide (P Top))
    | ISide (L BlockEnd) => as_ (ISide (P Bottom))
    | IOne (L BlockStart) k => as_ (IOne (P Top) k)
    | IOne (L BlockEnd) k => as_ (IOne (P Bottom) k)
    | _ => as_ i
    end.

(** ** The handler *)
(** border.rs:553-568, border_image.rs:298-308 *)
Record state := State {
  slot_of : place -> slot; cat : category; has_any : bool; done : flushed;
  image : ikey -> option V; image_any : bool; image_prefix : bool }.
Definition no_image : ikey -> option V := fun _ => None.
Definition start (c : category) : state := State (fun _ => empty_slot) c false (fun _ _ => false) no_image false false.
(** border.rs:750-1294 *)
Definition flush (s : state) : state * list event :=
  if has_any s then
    let (fl, e) := props (done s) (category_props false (fun l => slot_of s (P (canonical l)))) in
    let (fl, e') := props fl (category_props true (fun l => slot_of s (L l))) in
    (State (fun _ => empty_slot) (cat s) false fl (image s) (image_any s) (image_prefix s), e ++ e')
  else (s, []).
(** border_image.rs:450-543 *)
Definition image_props (f : ikey -> option V) : list decl :=
  match f Source, f Slice, f ImageWidth, f Outset, f Repeat with
  | Some a, Some b, Some c, Some d, Some e => [DImage a b c d e]
  | a, b, c, d, e =>
      opt_decl (DImageOne Source) a ++ opt_decl (DImageOne Slice) b ++ opt_decl (DImageOne ImageWidth) c ++ opt_decl (DImageOne Outset) d
      ++ opt_decl (DImageOne Repeat) e
  end.
Definition image_flush (s : state) : state * list event :=
  if image_any s then (State (slot_of s) (cat s) (has_any s) (done s) no_image false false, map Main (image_props (image s)))
  else (s, []).

Definition then_ (p : state * list event) (f : state -> state * list event) : state * list event :=
  let (s, e) := p in let (s', e') := f s in (s', e ++ e').
Definition category_of (p : place) : category := match p with P _ => Physical | L _ => Logical end.
Definition set_slot (p : place) (x : slot) (s : state) : state :=
  State (fun q => if place_eqb p q then x else slot_of s q) (cat s) (has_any s) (done s) (image s) (image_any s) (image_prefix s).
Definition mark (c : category) (s : state) : state := State (slot_of s) c true (done s) (image s) (image_any s) (image_prefix s).
Definition flush_if (b : bool) (s : state) : state * list event := if b then flush s else (s, []).
(** [flush!] (579-589) *)
Definition loses (o : option V) (v : V) : bool := match o with Some x => negb (veq x v) && negb (compat v) | None => false end.
(** [property!] (591-598) *)
Definition property (p : place) (k : key) (v : V) (s : state) : state * list event :=
  then_ (then_ (flush_if (negb (cat_eqb (category_of p) (cat s))) s) (fun s => flush_if (loses (slot_of s p k) v) s))
    (fun s => (mark (category_of p) (set_slot p (set_key k (Some v) (slot_of s p)) s), [])).
(** [set_border!] (600-609) *)
Definition set_border (p : place) (b : border) (s : state) : state * list event :=
  then_ (flush_if (negb (cat_eqb (category_of p) (cat s))) s) (fun s => (mark (category_of p) (set_slot p (of_border b) s), [])).
Definition map_slots (f : place -> slot -> slot) (s : state) : state :=
  State (fun p => f p (slot_of s p)) (cat s) true (done s) (image s) (image_any s) (image_prefix s).
(** border_image.rs:318-336 *)
Definition image_loses (i : ikey) (v : V) (s : state) : state * list event := if loses (image s i) v then image_flush s else (s, []).
Definition set_image (f : ikey -> option V) (s : state) : state := State (slot_of s) (cat s) (has_any s) (done s) f true true.
Definition is_image (i : pid) : bool := match i with IImageOne _ | IImage => true | _ => false end.
(** [handle_property] (570-739), for the properties of the two handlers *)
Definition handle (s : state) (d : decl) : state * list event :=
  match d with
  | DOne p k v => property p k v s
  | DSide p b => set_border p b s
  | DPair a k x y => then_ (property (L (start_of a)) k x s) (property (L (end_of a)) k y)
  | DAxis a b => then_ (set_border (L (start_of a)) b s) (set_border (L (end_of a)) b)
  | DRect k t r b l =>
      then_ (then_ (then_ (then_ (property (P Top) k t s) (property (P Right) k r)) (property (P Bottom) k b)) (property (P Left) k l))
        (fun s => (map_slots (fun p x => match p with L _ => set_key k None x | P _ => x end) s, []))
  | DBorder b =>
      let s := map_slots (fun p _ => match p with P _ => of_border b | L _ => empty_slot end) s in
      (State (slot_of s) (cat s) true (done s) no_image (image_any s) (image_prefix s), [])
  | DImageOne i v =>
      then_ (then_ (then_ (flush_if (negb (image_prefix s)) s) (fun s => if image_prefix s then (s, []) else image_flush s)) (image_loses i v))
        (fun s => (set_image (fun j => if ikey_eqb i j then Some v else image s j) s, []))
  | DImage a b c d e =>
      then_ (then_ (then_ (then_ (then_ (image_loses Source a s) (image_loses Slice b)) (image_loses ImageWidth c)) (image_loses Outset d)) (image_loses Repeat e))
        (fun s => (set_image (fun j => Some (match j with Source => a | Slice => b | ImageWidth => c | Outset => d | Repeat => e end)) s, []))
  | DRaw i u =>
      if is_image i then then_ (then_ (flush s) image_flush) (fun s => (s, [Main d]))
      else
        then_ (flush s) (fun s => let (fl, e) := push_raw (done s) i u in
                                  (State (slot_of s) (cat s) (has_any s) fl (image s) (image_any s) (image_prefix s), e))
  end.
Fixpoint handle_all (s : state) (l : list decl) : state * list event :=
  match l with [] => (s, []) | d :: r => then_ (handle s d) (fun s => handle_all s r) end.
(** Blocks: [finalize] (741-746) at the end.  The category is left over from the block before. *)
Definition minify (c : category) (l : list decl) : list event :=
  snd (then_ (then_ (handle_all (start c) l) flush) image_flush).

Definition mains (e : list event) : list decl := flat_map (fun x => match x with Main d => [d] | Dir _ _ => [] end) e.
Definition dirs (rtl : bool) (e : list event) : list decl :=
  flat_map (fun x => match x with Main _ => [] | Dir l r => [if rtl then r else l] end) e.
End Values.
Arguments DOne {V R}. Arguments DSide {V R}. Arguments DPair {V R}. Arguments DAxis {V R}. Arguments DRect {V R}. Arguments DBorder {V R}.
Arguments DImageOne {V R}. Arguments DImage {V R}. Arguments DRaw {V R}. Arguments Main {V R}. Arguments Dir {V R}.
Arguments Border3 {V}. Arguments b_width {V}. Arguments b_style {V}. Arguments b_color {V}. Arguments bget {V}.
Arguments mains {V R}. Arguments dirs {V R}.
