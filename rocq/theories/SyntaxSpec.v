(** * Syntax strings as CSS Properties and Values API (level 1, section 5) reads them

    A grammar with meanings; it uses the data of SyntaxModel, but none of its functions. *)
From Coq Require Import List Bool Ascii String.
From Verif Require Import AnimModel SyntaxModel.
Import ListNotations.
Local Open Scope string_scope.

Fixpoint all_chars (p : ascii -> Prop) (s : string) : Prop := match s with "" => True | String c r => p c /\ all_chars p r end.
Definition begins (p : ascii -> Prop) (s : string) : Prop := match s with "" => False | String c _ => p c end.
(** White space of CSS: tab, newline, space *)
Definition white (c : ascii) : Prop := nat_of_ascii c = 9 \/ nat_of_ascii c = 10 \/ nat_of_ascii c = 32.
Definition is_start (c : ascii) : Prop :=
  let n := nat_of_ascii c in 65 <= n <= 90 \/ 97 <= n <= 122 \/ 128 <= n \/ c = "_"%char.
Definition is_name (c : ascii) : Prop := is_start c \/ 48 <= nat_of_ascii c <= 57 \/ c = "-"%char.
(** An identifier without escapes *)
Definition identifier (s : string) : Prop :=
  all_chars is_name s /\ match s with "" => False | String c r => is_start c \/ (c = "-"%char /\ begins (fun d => is_start d \/ d = "-"%char) r) end.
(** A [<custom-ident>] *)
Definition literal (s : string) : Prop :=
  identifier s /\ ~ In (lower s) ["initial"; "inherit"; "unset"; "revert"; "revert-layer"; "default"].
(** The names of the supported types, section 5.1 *)
Definition types : list (string * kind) :=
  [("length", Length); ("number", Number); ("percentage", Percentage); ("length-percentage", LengthPercentage); ("string", CssString); ("color", Color);
   ("image", Image); ("url", Url); ("integer", Integer); ("angle", Angle); ("time", Time); ("resolution", Resolution);
   ("transform-function", TransformFunction); ("transform-list", TransformList); ("custom-ident", CustomIdent)].
Inductive GKind : string -> kind -> Prop :=
| gk_type n k : In (n, k) types -> GKind ("<" ++ n ++ ">") k
| gk_literal s : literal s -> GKind s (Literal s).
(** A multiplier follows at once; [<transform-list>] has none *)
Inductive GComponent : string -> component -> Prop :=
| gc_one s k : GKind s k -> GComponent s (Component k One)
| gc_space s k : GKind s k -> k <> TransformList -> GComponent (s ++ "+") (Component k Space)
| gc_comma s k : GKind s k -> k <> TransformList -> GComponent (s ++ "#") (Component k Comma).
Definition blanks (s : string) : Prop := all_chars white s.
(** Components between bars, white space around each *)
Inductive GComponents : string -> list component -> Prop :=
| gcs_one w s v c : blanks w -> GComponent s c -> blanks v -> GComponents (w ++ s ++ v) [c]
| gcs_more w s v c r l : blanks w -> GComponent s c -> blanks v -> GComponents r l -> GComponents (w ++ s ++ v ++ "|" ++ r) (c :: l).
Inductive GSyntax : string -> syntax -> Prop :=
| gs_universal w v : blanks w -> blanks v -> GSyntax (w ++ "*" ++ v) Universal
| gs_components s l : GComponents s l -> GSyntax s (Components l).

(** What the code does not read: newlines (written as escapes in the string), and literals that begin with [-] *)
Definition no_newline (s : string) : Prop := all_chars (fun c => nat_of_ascii c <> 10) s.
Definition plain_kind (k : kind) : Prop := match k with Literal s => ~ begins (fun c => c = "-"%char) s | _ => True end.
Definition plain (d : syntax) : Prop := match d with Components l => Forall (fun c => plain_kind (c_kind c)) l | Universal => True end.
(** What the code should not read: literals that are no [<custom-ident>] *)
Definition literals_ok (d : syntax) : Prop :=
  match d with Components l => Forall (fun c => match c_kind c with Literal s => literal s | _ => True end) l | Universal => True end.

(** ** Values: the whole of it, as one component of the syntax *)
Section Values.
Context {tok val : Type} (one : kind -> tok -> option val) (ident : tok -> option string) (comma : tok -> bool).
(** A single value *)
Inductive VSingle : kind -> list tok -> @single val -> Prop :=
| vs_value k t v : (forall s, k <> Literal s) -> k <> TransformList -> one k t = Some v -> VSingle k [t] (Value k v)
| vs_list l vs : Forall2 (fun t v => one TransformFunction t = Some v) l vs -> vs <> [] -> VSingle TransformList l (Transforms vs)
| vs_literal t s : ident t = Some s -> VSingle (Literal s) [t] (Word s).
(** One or more, separated by white space or by commas *)
Inductive VMany (k : kind) (m : multiplier) : list tok -> list (@single val) -> Prop :=
| vm_one l v : VSingle k l v -> VMany k m l [v]
| vm_space l v r vs : m = Space -> VSingle k l v -> VMany k m r vs -> VMany k m (l ++ r) (v :: vs)
| vm_comma l v t r vs : m = Comma -> comma t = true -> VSingle k l v -> VMany k m r vs -> VMany k m (l ++ t :: r) (v :: vs).
Inductive VComponent : component -> list tok -> @parsed val -> Prop :=
| vc_single k l v : VSingle k l v -> VComponent (Component k One) l (Single v)
| vc_many k m l vs : m <> One -> VMany k m l vs -> VComponent (Component k m) l (Repeated vs m).
(** The first component that the value is of *)
Inductive VSyntax : list component -> list tok -> @parsed val -> component -> Prop :=
| vx_here c cs l p : VComponent c l p -> VSyntax (c :: cs) l p c
| vx_later c cs l p d : (forall q, ~ VComponent c l q) -> VSyntax cs l p d -> VSyntax (c :: cs) l p d.
(** A component without multiplier that the value only begins with *)
Definition stops_early (c : component) (l : list tok) : Prop :=
  c_multiplier c = One /\ exists a b p, l = (a ++ b)%list /\ b <> [] /\ VComponent c a p.
(** The keyword [none] where there may be a [<transform-list>] *)
Context (none : tok -> bool).
Definition no_none (k : kind) (l : list tok) : Prop := k = TransformList -> match l with t :: _ => none t = false | [] => True end.
End Values.
Definition single_only (c : component) : Prop := c_kind c = TransformList -> c_multiplier c = One.
