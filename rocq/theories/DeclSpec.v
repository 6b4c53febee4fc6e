(** * What a declaration block means (CSS Cascade), over the tables of the source *)
From Coq Require Import List Bool String PeanoNat.
From Verif Require Import VendorPrefixModel ShorthandTable DeclModel.
Import ListNotations.
Local Open Scope string_scope.
Local Open Scope list_scope.

(** The table line an id belongs to, if it is a shorthand *)
Definition names (i : pid) (s : sh) : Prop :=
  match i with
  | PVp n _ => sh_vp s = true /\ sh_name s = n
  | PPlain n => sh_vp s = false /\ sh_name s = n
  | _ => False
  end.
Definition short (i : pid) : Prop := exists s, In s shorthand_table /\ names i s.

(** A prefixed shorthand sets the longhands with the same prefix. *)
Definition prefix_of (i : pid) : vset := match i with PVp _ p => p | _ => vs_one Unprefixed end.
Definition longhand_id (l : lh) (p : vset) : pid :=
  if lh_vp l then PVp (lh_name l) p else PPlain (lh_name l).

(** What a declaration gives to a longhand: a value; text that is parsed later because it contains
    [var()]; an unknown part of such a text; a keyword given to all properties *)
Inductive said := Value (v : value) | Raw (v : value) | Pending | Reset (v : value).

(** [all] sets every property but these *)
Definition reset_by_all (l : pid) : Prop :=
  match l with
  | PCustom _ | PAll => False
  | _ => pid_name l <> "direction" /\ pid_name l <> "unicode-bidi"
  end.

(** [says d l x]: the declaration gives [x] to the longhand [l].  A shorthand stands for the
    declarations of its longhands. *)
Inductive says : property -> pid -> said -> Prop :=
| says_long : forall i v, says (PLong i v) i (Value v)
| says_all : forall v l, reset_by_all l -> says (PLong PAll v) l (Reset v)
| says_short : forall i vs s k g l v,
    In s shorthand_table -> names i s -> nth_error (sh_keys s) k = Some g -> In l g ->
    nth_error vs k = Some v ->
    says (PShort i vs) (longhand_id l (prefix_of i)) (Value v)
| says_raw : forall i v, ~ short i -> says (PUnparsed i v) i (Raw v)
| says_pending : forall i v s g l,
    In s shorthand_table -> names i s -> In g (sh_keys s) -> In l g ->
    says (PUnparsed i v) (longhand_id l (prefix_of i)) Pending.

Definition silent (l : pid) (ds : list property) : Prop := forall d x, In d ds -> ~ says d l x.

(** The last declaration in a list *)
Definition last_says (l : pid) (ds : list property) (x : said) : Prop :=
  exists a d c, ds = a ++ d :: c /\ says d l x /\ silent l c.

(** The cascaded value of a longhand in a block: important declarations win, then the last one. *)
Definition cascaded (b : block) (l : pid) (x : said) (important : bool) : Prop :=
  if important then last_says l (b_important b) x
  else silent l (b_important b) /\ last_says l (b_normal b) x.

(** ** Values the Rust types allow, with the single prefixes the parser gives *)
Definition one_prefix (i : pid) : Prop := match i with PVp _ p => exists q, p = vs_one q | _ => True end.
Definition same_length (vs : list value) : Prop :=
  exists n, forall v, In v vs -> List.length v = n.
Definition typed (d : property) : Prop :=
  one_prefix (prop_id d) /\
  match d with
  | PLong i _ => ~ short i
  | PShort i vs =>
      exists s, In s shorthand_table /\ names i s /\ List.length vs = List.length (sh_keys s) /\
                match sh_kind s with
                | KPlain => True
                | KList => same_length vs
                | KBackground => exists c r, vs = c :: r /\ same_length r
                end
  | PUnparsed _ _ => True
  end.
Definition typed_block (b : block) : Prop :=
  forall d, In d (b_important b) \/ In d (b_normal b) -> typed d.
Definition without_all (b : block) : Prop :=
  forall d, In d (b_important b) \/ In d (b_normal b) -> prop_id d <> PAll.

(** A longhand whose shorthands all have a prefix exactly when it has one, or which has no prefix.
    The others are [-webkit-align-content] and the like, whose shorthand exists without prefix only,
    and [border-image-source] and the like, whose shorthand can be prefixed. *)
Definition regular (l : pid) : Prop :=
  forall s g x, In s shorthand_table -> In g (sh_keys s) -> In x g -> lh_name x = pid_name l ->
    sh_vp s = lh_vp x \/ (sh_vp s = false /\ pid_prefix l = vs_one Unprefixed).
Definition regular_prop (p : property) : Prop := forall l x, says p l x -> regular l.

Definition touches (d p : property) : Prop := exists l x y, says d l x /\ says p l y.

(** The number of layers of a list-valued shorthand *)
Definition items (s : sh) (vs : list value) : nat :=
  List.length (nth (match sh_kind s with KBackground => 1 | _ => 0 end) vs []).
(** A declaration that can be changed in place to carry [p]: it has the same name, or it is a
    shorthand with a field of its own for the longhand and as many items. *)
Inductive accepts : property -> property -> Prop :=
| accepts_same : forall d p, prop_id d = prop_id p -> accepts d p
| accepts_field : forall i vs s k l v,
    In s shorthand_table -> names i s -> nth_error (sh_keys s) k = Some [l] ->
    (sh_kind s = KPlain \/ List.length v = items s vs \/ (sh_kind s = KBackground /\ k = 0)) ->
    accepts (PShort i vs) (PLong (longhand_id l (prefix_of i)) v)
| accepts_position : forall vs s x y,
    In s shorthand_table -> names (PPlain "background") s -> List.length x = items s vs ->
    accepts (PShort (PPlain "background") vs) (PShort (PPlain "background-position") [x; y]).

(** Longhands that set the same thing in a logical and a physical way *)
Definition in_group (l : pid) (g : lgroup) (c : category) : Prop :=
  match l with PVp n _ | PPlain n => In (n, (g, c)) logical_table | _ => False end.
Definition opposed (l l' : pid) : Prop := exists g c c', in_group l g c /\ in_group l' g c' /\ c <> c'.

(** The list [set] writes to *)
Definition target (b : block) (important : bool) : list property :=
  if important then b_important b else b_normal b.

(** Whenever a declaration that can carry [p] is followed by one that touches [p], it is followed by
    one that can carry [p]: the last declaration that matters is the one that is changed. *)
Definition carried (ds : list property) (p : property) : Prop :=
  forall a d c e, ds = a ++ d :: c -> accepts d p -> In e c -> touches e p -> exists e', In e' c /\ accepts e' p.
(** An important declaration with another name sets a part of [p]. *)
Definition overruled (b : block) (p : property) : Prop :=
  exists d, In d (b_important b) /\ prop_id d <> prop_id p /\ touches d p.

(** No declaration of the shorthand [p] or its longhands has another prefix. *)
Definition prefixes_agree (b : block) (p : property) : Prop :=
  forall d n q, In d (b_important b) \/ In d (b_normal b) -> prop_id d = PVp n q ->
    n = pid_name (prop_id p) \/ (exists l x, says p l x /\ pid_name l = n) -> q = prefix_of (prop_id p).
(** A declaration of the other importance gives a value to a longhand of [p]. *)
Definition mixed (b : block) (p : property) (important : bool) : Prop :=
  exists d l x v, In d (target b (negb important)) /\ says p l x /\ says d l (Value v).
(** A shorthand whose values are not lists *)
Definition plain (i : pid) : Prop := exists s, In s shorthand_table /\ names i s /\ sh_kind s = KPlain.

(** What an id stands for: itself, or its longhands *)
Definition part_of (i l : pid) : Prop :=
  (~ short i /\ l = i) \/
  exists s g x, In s shorthand_table /\ names i s /\ In g (sh_keys s) /\ In x g /\ l = longhand_id x (prefix_of i).
(** A parsed shorthand all of whose longhands are regular *)
Definition splittable (d : property) : Prop := (exists i vs, d = PShort i vs) /\ regular_prop d.
Definition in_block (b : block) (d : property) : Prop := In d (b_important b) \/ In d (b_normal b).
