(** * Meaning of media queries (Media Queries Level 4), independent of the printer and parser.

    Three-valued (Kleene) logic: [None] is "unknown", as the specification prescribes for
    features the browser does not know. *)
From Coq Require Import List String Ascii Bool ZArith QArith.
From Verif Require Import MediaModel.
Import ListNotations.
Open Scope string_scope.
Open Scope list_scope.

Definition tri := option bool.

Definition tnot (a : tri) : tri := option_map negb a.
Definition tand (a b : tri) : tri :=
  match a, b with
  | Some false, _ | _, Some false => Some false
  | Some true, Some true => Some true
  | _, _ => None
  end.
Definition tor (a b : tri) : tri :=
  match a, b with
  | Some true, _ | _, Some true => Some true
  | Some false, Some false => Some false
  | _, _ => None
  end.

Definition tall (l : list tri) : tri := fold_right tand (Some true) l.
Definition tany (l : list tri) : tri := fold_right tor (Some false) l.

(** The kind of device rendering the document. *)
Inductive device := DPrint | DScreen | DOther.

(** What a browser knows about its environment. *)
Record env := Env {
  e_device : device;
  e_num : feature_id -> option Q;        (* numeric features: width in px, resolution in dppx ... *)
  e_ident : feature_id -> option string; (* keyword features *)
  e_unit : string -> Q;                  (* size of one unit of length, in px *)
  e_var : string -> option Q             (* env() variables *)
}.

(** The number denoted by a value; lengths in px, resolutions in dppx. *)
Definition den (e : env) (v : mvalue) : option Q :=
  match v with
  | VLength q u => Some (q * e_unit e u)
  | VNumber q => Some q
  | VInteger z => Some (inject_Z z)
  | VBoolean b => Some (if b then 1 else 0)
  | VResolution q Dpi => Some (q / 96)
  | VResolution q Dpcm => Some (q * (254 # 100) / 96)
  | VResolution q Dppx => Some q
  | VRatio a b => if Qeq_bool b 0 then None else Some (a / b)
  | VIdent _ => None
  | VEnv s => e_var e s
  end.

Definition holds (op : comparison_op) (x y : Q) : bool :=
  match op with
  | CEq => Qeq_bool x y
  | CGt => negb (Qle_bool x y)
  | CGe => Qle_bool y x
  | CLt => negb (Qle_bool y x)
  | CLe => Qle_bool x y
  end.

(** [feature op value], e.g. [width >= 100px] *)
Definition compare_feature (e : env) (f : feature_id) (op : comparison_op) (v : mvalue) : tri :=
  match e_num e f, den e v with
  | Some x, Some y => Some (holds op x y)
  | _, _ => None
  end.

(** [value op feature], e.g. [100px <= width] *)
Definition compare_value (e : env) (v : mvalue) (op : comparison_op) (f : feature_id) : tri :=
  match e_num e f, den e v with
  | Some x, Some y => Some (holds op y x)
  | _, _ => None
  end.

Definition eval_plain (e : env) (f : feature_id) (v : mvalue) : tri :=
  match v with
  | VIdent s => match e_ident e f with Some t => Some (ieq s t) | None => None end
  | _ => compare_feature e f CEq v
  end.

Definition eval_boolean (e : env) (f : feature_id) : tri :=
  match feature_id_type f with
  | FTIdent => match e_ident e f with Some t => Some (negb (ieq t "none")) | None => None end
  | _ => match e_num e f with Some x => Some (negb (Qeq_bool x 0)) | None => None end
  end.

Definition eval_feature (e : env) (f : feature) : tri :=
  match f with
  | FPlain (NStandard f) v => eval_plain e f v
  | FBoolean (NStandard f) => eval_boolean e f
  | FRange (NStandard f) op v => compare_feature e f op v
  | FInterval (NStandard f) s sop t eop =>
      tand (compare_value e s sop f) (compare_feature e f eop t)
  | _ => None
  end.

Fixpoint eval_cond (e : env) (c : cond) : tri :=
  match c with
  | CFeature f => eval_feature e f
  | CNot d => tnot (eval_cond e d)
  | COp And cs => tall (map (eval_cond e) cs)
  | COp Or cs => tany (map (eval_cond e) cs)
  | CUnknown _ => None
  end.

Definition type_matches (e : env) (t : media_type) : bool :=
  match t, e_device e with
  | MAll, _ | MPrint, DPrint | MScreen, DScreen => true
  | _, _ => false
  end.

Definition eval_query (e : env) (q : mquery) : tri :=
  let r := tand (Some (type_matches e (mq_type q)))
                (match mq_cond q with Some c => eval_cond e c | None => Some true end) in
  match mq_qual q with Some QNot => tnot r | _ => r end.

(** A query that evaluates to unknown does not match. *)
Definition query_matches (e : env) (q : mquery) : bool :=
  match eval_query e q with Some true => true | _ => false end.

(** A comma-separated list matches if some query does; the empty list matches. *)
Definition list_matches (e : env) (l : mlist) : bool :=
  match l with [] => true | _ => existsb (query_matches e) l end.

(** ** Which queries the printing theorem covers *)

(** The known defects of printing, stated on the source condition:
    [not] applied directly to an equality range (its negation is printed as the equality), and raw
    token lists (only produced with error recovery). *)
Fixpoint printable (c : cond) : bool :=
  match c with
  | CFeature _ => true
  | CNot (CFeature (FRange _ CEq _)) => false
  | CNot d => printable d
  | COp _ cs => forallb printable cs
  | CUnknown _ => false
  end.

(** [c] is an even, non-zero number of negations of a disjunction. *)
Fixpoint double_not_or (c : cond) : bool :=
  match c with
  | CNot (CNot x) => match x with COp Or _ => true | _ => double_not_or x end
  | _ => false
  end.

Definition printable_query (q : mquery) : bool :=
  match mq_cond q with
  | None => true
  | Some c =>
      printable c &&
      match mq_type q, mq_qual q with
      | MAll, None => true
      | _, _ => negb (double_not_or c)
      end
  end.

(** ** Custom media (for C06): meaning of [(--name)] given the definitions *)

(** [@custom-media --name <list>] rules in source order; a name means its last definition. *)
Definition cm_map := list (string * mlist).
Fixpoint cm_get (m : cm_map) (s : string) : option mlist :=
  match m with
  | [] => None
  | (k, v) :: r =>
      match cm_get r s with
      | Some d => Some d
      | None => if String.eqb k s then Some v else None
      end
  end.

(** Media lists as three-valued: the disjunction of the queries, or true when empty. *)
Section Custom.
  Variable m : cm_map.
  Variable e : env.

  (** The relation "condition [c], with references replaced by their definitions, has value [t]".
      Being inductive it has no value for cyclic references. *)
  Inductive cm_cond : cond -> tri -> Prop :=
  | CM_ref : forall s l t,
      cm_get m s = Some l -> cm_list l t ->
      cm_cond (CFeature (FBoolean (NCustom s))) t
  | CM_feature : forall f,
      (forall s, f <> FBoolean (NCustom s)) ->
      cm_cond (CFeature f) (eval_feature e f)
  | CM_not : forall c t, cm_cond c t -> cm_cond (CNot c) (tnot t)
  | CM_and : forall cs ts, cm_conds cs ts -> cm_cond (COp And cs) (tall ts)
  | CM_or : forall cs ts, cm_conds cs ts -> cm_cond (COp Or cs) (tany ts)
  | CM_unknown : forall l, cm_cond (CUnknown l) None
  with cm_conds : list cond -> list tri -> Prop :=
  | CMs_nil : cm_conds [] []
  | CMs_cons : forall c cs t ts, cm_cond c t -> cm_conds cs ts -> cm_conds (c :: cs) (t :: ts)
  with cm_query : mquery -> tri -> Prop :=
  | CMq_none : forall q t,
      cm_query (MQ q t None)
               (match q with
                | Some QNot => tnot (Some (type_matches e t))
                | _ => Some (type_matches e t) end)
  | CMq_some : forall q t c v, cm_cond c v ->
      cm_query (MQ q t (Some c))
               (match q with
                | Some QNot => tnot (tand (Some (type_matches e t)) v)
                | _ => tand (Some (type_matches e t)) v end)
  with cm_list : mlist -> tri -> Prop :=
  | CMl_nil : cm_list [] (Some true)
  | CMl_cons : forall q l ts, cm_queries (q :: l) ts -> cm_list (q :: l) (tany ts)
  with cm_queries : mlist -> list tri -> Prop :=
  | CMqs_nil : cm_queries [] []
  | CMqs_cons : forall q l t ts, cm_query q t -> cm_queries l ts -> cm_queries (q :: l) (t :: ts).
End Custom.

(** Definitions made of conditions only: no media type, no qualifier, at least one query. *)
Definition pure_query (q : mquery) : bool :=
  match q with MQ None MAll (Some _) => true | _ => false end.
Definition pure_rules (m : cm_map) : bool :=
  forallb (fun r => match snd r with [] => false | l => forallb pure_query l end) m.

(** No reference to a custom media query is left. *)
Fixpoint no_custom (c : cond) : bool :=
  match c with
  | CFeature (FBoolean (NCustom _)) => false
  | CNot d => no_custom d
  | COp _ cs => forallb no_custom cs
  | _ => true
  end.

(** ** When [and] of two queries is computed correctly *)

(** Both queries have no condition, or neither has the [not] qualifier and their types do not
    exclude each other; [not] together with a different type or [all] only without conditions.
    The excluded pairs are computed incorrectly (see the [_refuted] theorems). *)
Definition and_safe (a b : mquery) : bool :=
  let bare q := match mq_cond q with None => true | Some _ => false end in
  match mq_qual a, mq_qual b with
  | Some QNot, Some QNot => bare a && bare b
  | Some QNot, _ =>
      bare a && match mq_type a, mq_type b with
                | MAll, _ | _, MAll => bare b
                | t, u => negb (mtype_eqb t u)
                end
  | _, Some QNot =>
      bare b && match mq_type b, mq_type a with
                | MAll, _ | _, MAll => bare a
                | t, u => negb (mtype_eqb t u)
                end
  | _, _ =>
      match mq_type a, mq_type b with
      | MAll, _ | _, MAll => true
      | t, u => mtype_eqb t u || (bare a && bare b)
      end
  end.

(** [and] of lists: the right-hand side is a single query that is not already one of several. *)
Definition and_safe_lists (a b : mlist) : bool :=
  match a, b with
  | [], _ | _, [] => true
  | [x], [y] => mquery_eqb x y || and_safe x y
  | _, [y] => negb (mlist_contains a y) && forallb (fun x => and_safe x y) a
  | _, _ => false
  end.

(** ** Resolution prefixes *)

(** A browser that knows a prefixed device-pixel-ratio feature gives it the value of [resolution]
    in dppx. *)
Definition ratio_consistent (e : env) : Prop :=
  forall f, f = WebKitDevicePixelRatio \/ f = MozDevicePixelRatio ->
       e_num e f = None \/ e_num e f = e_num e Resolution_.

(** The feature that stands for [resolution] in browsers with the given prefix *)
Definition ratio_feature (p : vprefix) : option feature_id :=
  match p with PWebKit => Some WebKitDevicePixelRatio | PMoz => Some MozDevicePixelRatio | POther => None end.
(** The browser [e], if it also knew [resolution] with value [r] *)
Definition with_resolution (e : env) (r : Q) : env :=
  Env (e_device e)
      (fun f => if feature_id_eqb f Resolution_ then Some r else e_num e f)
      (e_ident e) (e_unit e) (e_var e).
(** [resolution] is only used in single comparisons with a resolution value *)
Fixpoint ranged_resolution (c : cond) : bool :=
  match c with
  | CFeature (FRange (NStandard Resolution_) _ (VResolution _ _)) => true
  | CFeature (FRange (NStandard f) _ _) | CFeature (FPlain (NStandard f) _)
  | CFeature (FBoolean (NStandard f)) | CFeature (FInterval (NStandard f) _ _ _ _) =>
      negb (feature_id_eqb f Resolution_)
  | CFeature _ => true
  | CNot d => ranged_resolution d
  | COp _ cs => forallb ranged_resolution cs
  | CUnknown _ => true
  end.
Definition ranged_query (q : mquery) : bool :=
  match mq_cond q with Some c => ranged_resolution c | None => true end.

(** Every query preceded by its prefixed variants *)
Definition with_variants (ps : list vprefix) (l : mlist) : mlist :=
  flat_map (fun q => map (fun p => transform_res_query p q) (query_prefixes ps q) ++ [q]) l.
(** No two elements are equal *)
Fixpoint distinct (l : mlist) : Prop :=
  match l with
  | [] => True
  | q :: r => (forall x, In x r -> mquery_eqb q x = false /\ mquery_eqb x q = false) /\ distinct r
  end.

(** ** Range syntax *)

(** A token list without comparison operators, at any depth. *)
Fixpoint no_comparison (t : tok) : bool :=
  match t with
  | TDelim c => negb (Ascii.eqb c "=" || Ascii.eqb c "<" || Ascii.eqb c ">")%char
  | TBlock l => forallb no_comparison l
  | _ => true
  end.
