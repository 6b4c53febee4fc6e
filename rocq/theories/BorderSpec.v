(** * What declarations of borders mean (CSS Backgrounds 3, section 4; CSS Logical Properties; CSS Cascade) *)
From Coq Require Import List Bool.
From Verif Require Import SideModel SideSpec BorderModel.
Import ListNotations.

(** The longhands of borders, by the side that they are drawn on, and of border images *)
Inductive target := T (s : side) (k : key) | TI (i : ikey).
Definition side_at (w : writing_mode) (p : place) : side := match p with P s => s | L l => w l end.

Section Values.
(** [M] is what values stand for *)
Variable V R M : Type.
Variable mean : V -> M.
(** A value, the initial value, the tokens of the longhand's own declaration, or a part of what is declared for several longhands:
    for width, style and colour of a border, for the start or end of an axis, for one of four sides *)
Inductive part := PBorder (k : key) | PPair (k : key) (is_end : bool) | PRect (k : key) (s : side) | PImage (i : ikey).
Inductive cell := CVal (m : M) | CInitial | CTokens (u : R) | CPart (x : part) (u : R).

Definition gives (w : writing_mode) (d : decl V R) (t : target) : option cell :=
  let is (p : place) (s : side) := side_eqb (side_at w p) s in
  let if_ (b : bool) (c : cell) := if b then Some c else None in
  let val v := CVal (mean v) in
  match d, t with
  | DOne p k v, T s j => if_ (is p s && key_eqb k j) (val v)
  | DSide p b, T s j => if_ (is p s) (val (bget b j))
  | DPair a k x y, T s j =>
      if key_eqb k j then if is (L (start_of a)) s then Some (val x) else if_ (is (L (end_of a)) s) (val y) else None
  | DAxis a b, T s j => if_ (is (L (start_of a)) s || is (L (end_of a)) s) (val (bget b j))
  | DRect k t r b l, T s j => if_ (key_eqb k j) (val (match s with Top => t | Right => r | Bottom => b | Left => l end))
  | DBorder b, T s j => Some (val (bget b j))
  | DBorder _, TI _ => Some CInitial
  | DImageOne i v, TI j => if_ (ikey_eqb i j) (val v)
  | DImage a b c d e, TI j => Some (val (match j with Source => a | Slice => b | ImageWidth => c | Outset => d | Repeat => e end))
  | DRaw (IOne p k) u, T s j => if_ (is p s && key_eqb k j) (CTokens u)
  | DRaw (ISide p) u, T s j => if_ (is p s) (CPart (PBorder j) u)
  | DRaw (IPair a k) u, T s j =>
      if key_eqb k j then if is (L (start_of a)) s then Some (CPart (PPair k false) u) else if_ (is (L (end_of a)) s) (CPart (PPair k true) u)
      else None
  | DRaw (IAxis a) u, T s j => if_ (is (L (start_of a)) s || is (L (end_of a)) s) (CPart (PBorder j) u)
  | DRaw (IRect k) u, T s j => if_ (key_eqb k j) (CPart (PRect k s) u)
  | DRaw IBorder u, T s j => Some (CPart (PBorder j) u)
  | DRaw IBorder _, TI _ => Some CInitial
  | DRaw (IImageOne i) u, TI j => if_ (ikey_eqb i j) (CTokens u)
  | DRaw IImage u, TI j => Some (CPart (PImage j) u)
  | _, _ => None
  end.
(** The last declaration that gives something wins; [o] is what the longhand has without the block *)
Fixpoint used_from (w : writing_mode) (l : list (decl V R)) (o : option cell) (t : target) : option cell :=
  match l with
  | [] => o
  | d :: r => used_from w r (match gives w d t with Some c => Some c | None => o end) t
  end.

(** [get_fallbacks] changes colours only to others that mean the same *)
Definition honest (get_fallbacks : list V -> list (list V) * list V) : Prop := forall l, map mean (snd (get_fallbacks l)) = map mean l.
Definition is_horizontal (w : writing_mode) : Prop := exists rtl, w = horizontal rtl.
(** What declarations give border images is parsed, and all targets know it *)
Definition plain_image (compat : V -> bool) (d : decl V R) : Prop :=
  match d with
  | DImageOne _ v => compat v = true
  | DImage a b c d e => compat a = true /\ compat b = true /\ compat c = true /\ compat d = true /\ compat e = true
  | DRaw i _ => is_image i = false
  | _ => True
  end.
(** The last declaration of a longhand of border-image *)
Definition last_image (w : writing_mode) (l : list (decl V R)) (i : ikey) (v : V) : Prop :=
  exists l1 d l2, l = l1 ++ d :: l2 /\ (forall d, In d l2 -> gives w d (TI i) = None)
    /\ match d with
       | DImageOne j x => i = j /\ v = x
       | DImage a b c d e => v = match i with Source => a | Slice => b | ImageWidth => c | Outset => d | Repeat => e end
       | _ => False
       end.
(** Physical declarations; logical ones with parsed values that all targets know *)
Definition physical (d : decl V R) : Prop :=
  match d with
  | DOne (P _) _ _ | DSide (P _) _ | DRect _ _ _ _ _ | DBorder _ | DRaw (IOne (P _) _) _ | DRaw (ISide (P _)) _ | DRaw (IRect _) _ | DRaw IBorder _ => True
  | _ => False
  end.
Definition logical (compat : V -> bool) (d : decl V R) : Prop :=
  match d with
  | DOne (L _) _ v => compat v = true
  | DPair _ _ x y => compat x = true /\ compat y = true
  | DSide (L _) _ | DAxis _ _ => True
  | _ => False
  end.
End Values.
Arguments CVal {R M}. Arguments CInitial {R M}. Arguments CTokens {R M}. Arguments CPart {R M}.
Arguments gives {V R M}. Arguments used_from {V R M}. Arguments honest {V M}. Arguments plain_image {V R}. Arguments last_image {V R M}.
Arguments physical {V R}. Arguments logical {V R}.
