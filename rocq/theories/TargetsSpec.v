(** * What targets mean *)
From Coq Require Import List Bool String Ascii NArith.
From Verif Require Import TargetsTable TargetsModel.
Import ListNotations.
Local Open Scope string_scope.
Local Open Scope list_scope.
Local Open Scope N_scope.

(** ** Versions *)
(** A decimal number *)
Inductive numeral : string -> N -> Prop :=
| num_one d : d < 10 -> numeral (String (ascii_of_N (48 + d)) "") d
| num_more s n d : numeral s n -> d < 10 -> numeral (String.append s (String (ascii_of_N (48 + d)) "")) (10 * n + d).
Inductive dotted : string -> N * N * N -> Prop :=
| dot_major s a : numeral s a -> dotted s (a, 0, 0)
| dot_minor s t a b : numeral s a -> numeral t b -> dotted (String.append s (String "." t)) (a, b, 0)
| dot_patch s t u a b c : numeral s a -> numeral t b -> numeral u c ->
    dotted (String.append s (String "." (String.append t (String "." u)))) (a, b, c).
(** A version, or a range, which stands for its first version *)
Definition written (s : string) (v : N * N * N) : Prop :=
  dotted s v \/ exists p q, s = String.append p (String "-" q) /\ dotted p v.
Definition version_le (x y : N * N * N) : Prop :=
  let '(a, b, c) := x in let '(a', b', c') := y in a < a' \/ (a = a' /\ (b < b' \/ (b = b' /\ c <= c'))).
(** The parts of a target version *)
Definition version_of (v : N) : N * N * N := (v / 65536, (v / 256) mod 256, v mod 256).
Definition bytes (v : N * N * N) : Prop := let '(a, b, c) := v in a < 256 /\ b < 256 /\ c < 256.
Definition words (v : N * N * N) : Prop := let '(a, b, c) := v in a < 4294967296 /\ b < 4294967296 /\ c < 4294967296.
(** The names of browserslist *)
Definition known_names : list (string * browser) :=
  [("android", Android); ("chrome", Chrome); ("and_chr", Chrome); ("edge", Edge); ("firefox", Firefox); ("and_ff", Firefox);
   ("ie", IE); ("ios_saf", IosSaf); ("opera", Opera); ("op_mob", Opera); ("safari", Safari); ("samsung", Samsung)].

(** ** Features *)
(** A version of a browser has the feature of a row *)
Definition has_row (row : list (browser * option N)) (b : browser) (v : N) : Prop :=
  forall o, In (b, o) row -> exists m, o = Some m /\ m <= v.
(** ... of a feature of the table *)
Definition has_feature (name : string) (b : browser) (v : N) : Prop :=
  forall r, In r compat_table -> In name (fst r) -> has_row (snd r) b v.
(** More browsers, or older versions *)
Definition older (bs bs' : browsers) : Prop := forall b v, bs b = Some v -> exists w, bs' b = Some w /\ w <= v.
Definition wider (o o' : option browsers) : Prop :=
  match o, o' with
  | None, _ => True
  | Some bs, Some bs' => older bs bs'
  | Some _, None => False
  end.
Definition targets_browser (t : targets) (b : browser) (v : N) : Prop :=
  exists bs, t_browsers t = Some bs /\ bs b = Some v.

(** ** Prefixes *)
Definition within (r : option N * option N) (v : N) : Prop :=
  (forall lo, fst r = Some lo -> lo <= v) /\ (forall hi, snd r = Some hi -> v <= hi).
(** A version of a browser needs a prefix *)
Definition needs (row : list (browser * (option N * option N) * prefix)) (b : browser) (v : N) (p : prefix) : Prop :=
  exists r, In (b, r, p) row /\ within r v.

(** ** Colours *)
Fixpoint understands (b : browser) (v : N) (c : color) : Prop :=
  match c with
  | Keyword | Rgb => True
  | Lab => has_feature "LabColors" b v
  | Oklab => has_feature "OklabColors" b v
  | P3 => has_feature "P3Colors" b v
  | Predefined => has_feature "ColorFunction" b v
  | LightDarkColor l d => understands b v l /\ understands b v d
  end.
Fixpoint no_keyword (c : color) : Prop :=
  match c with Keyword => False | LightDarkColor l d => no_keyword l /\ no_keyword d | _ => True end.

(** ** Scopes *)
(** The features that the colours of a value need *)
Inductive color_needs : color -> flag -> Prop :=
| need_lab : color_needs Lab LabColors
| need_oklab : color_needs Oklab OklabColors
| need_color : color_needs Predefined ColorFunction
| need_p3_color : color_needs P3 ColorFunction
| need_p3 : color_needs P3 P3Colors
| need_light_dark l d : color_needs (LightDarkColor l d) LightDark
| need_light l d f : color_needs l f -> color_needs (LightDarkColor l d) f
| need_dark l d f : color_needs d f -> color_needs (LightDarkColor l d) f.
Inductive token_needs : token -> flag -> Prop :=
| needs_color c f : color_needs c f -> token_needs (TColor c) f
| needs_float : token_needs TFloat SpaceSeparatedColorNotation
| needs_function l t f : In t l -> token_needs t f -> token_needs (TFunction l) f.
(** Values with variables are accepted whatever they are *)
Fixpoint has_var (t : token) : bool :=
  match t with
  | TVar _ | TUnresolved | TUnresolvedLightDark _ _ => true
  | TFunction l => existsb has_var l
  | _ => false
  end.
Record ua := Ua { accepts : string -> list token -> bool; knows : string -> bool; answers : nat -> bool; has : flag -> bool }.
(** A browser that accepts a value without variables has the features of its colours *)
Definition honest (u : ua) : Prop :=
  forall p v, accepts u p v = true -> existsb has_var v = false -> forall t f, In t v -> token_needs t f -> has u f = true.
Fixpoint holds (u : ua) (c : cond) : bool :=
  match c with
  | CNot c => negb (holds u c)
  | CAnd l => forallb (holds u) l
  | COr l => existsb (holds u) l
  | CDecl custom p (Some v) => custom || (knows u p && existsb has_var v) || accepts u p v
  | CDecl _ _ None => false
  | CElse n => answers u n
  end.
(** No custom properties and no variables *)
Fixpoint var_free (c : cond) : Prop :=
  match c with
  | CNot c => var_free c
  | CAnd l | COr l => (fix all (l : list cond) : Prop := match l with [] => True | x :: r => var_free x /\ all r end) l
  | CDecl custom _ (Some v) => custom = false /\ existsb has_var v = false
  | CDecl _ _ None | CElse _ => True
  end.
(** The places of a style sheet with the conditions around them *)
Fixpoint places (around : list cond) (r : rule) : list (nat * list cond) :=
  match r with
  | Use n => [(n, around)]
  | Group l => flat_map (places around) l
  | Supports c l => flat_map (places (c :: around)) l
  end.
Definition same_targets (a b : targets) : Prop :=
  t_browsers a = t_browsers b /\ (forall f, t_include a f = t_include b f) /\ forall f, t_exclude a f = t_exclude b f.
(** The targets [t] with the features of the conditions around excluded *)
Definition inside (t : targets) (around : list cond) (u : targets) : Prop :=
  t_browsers u = t_browsers t /\ (forall f, t_include u f = t_include t f)
  /\ forall f, t_exclude u f = t_exclude t f || existsb (fun c => supported_features c f) around.
(** What a place of the style sheet sees *)
Definition saw (t : targets) (o : seen) (p : nat * list cond) : Prop :=
  at_ o = fst p /\ inside t (snd p) (by_rules o) /\ same_targets (by_handlers o) (by_rules o).
