(** * What a printed declaration block should be *)
From Coq Require Import List Bool String.
From Verif Require Import MediaModel VendorPrefixModel PropertyTable DeclTextModel.
Import ListNotations.
Local Open Scope string_scope.
Local Open Scope list_scope.

Definition blank (l : list tk) : Prop := forall t, In t l -> is_blank t = true.

(** ** The statements of a text (CSS Syntax): it is cut at the semicolons outside of brackets, and
    pieces with nothing in them are skipped *)
Fixpoint pieces (l : list tk) : list (list tk) :=
  match l with
  | [] => [[]]
  | KSemi :: r => [] :: pieces r
  | t :: r => match pieces r with p :: ps => (t :: p) :: ps | [] => [[t]] end
  end.
Definition something (p : list tk) : bool := existsb (fun t => negb (is_blank t)) p.
(** A piece is a name, a colon, a value and perhaps [!important]. *)
Inductive states : list tk -> string -> list tk -> bool -> Prop :=
| states_normal : forall a n v, blank a -> states (a ++ KIdent n :: KColon :: v) n v false
| states_important : forall a n v w x, blank a -> blank w -> blank x ->
    states (a ++ KIdent n :: KColon :: v ++ w ++ KBang :: x ++ [KIdent "important"]) n v true.

(** ** Token lists *)

(** The shape of a token without its contents *)
Definition shape (t : tk) : tk :=
  match t with
  | KWs _ => KWs "" | KComment _ => KComment "" | KIdent _ => KIdent "" | KAt _ => KAt "" | KOther _ => KOther ""
  | KFun _ _ => KFun "" [] | KBlock b _ => KBlock b [] | _ => t
  end.

(** No comment anywhere *)
Fixpoint no_comment (v : tv) : bool :=
  match v with
  | VTok (KComment _) => false
  | VTok _ => true
  | VRef _ _ None => true
  | VRef _ _ (Some l) | VFun _ l | VBlock _ l => forallb no_comment l
  end.
(** No empty fallback anywhere *)
Fixpoint full (v : tv) : bool :=
  match v with
  | VTok _ => true
  | VRef _ _ None => true
  | VRef _ _ (Some []) => false
  | VRef _ _ (Some l) | VFun _ l | VBlock _ l => forallb full l
  end.
(** Every whitespace made a space *)
Fixpoint spaces (v : tv) : tv :=
  match v with
  | VTok (KWs _) => VTok (KWs " ")
  | VTok t => VTok t
  | VRef f n None => VRef f n None
  | VRef f n (Some l) => VRef f n (Some (map spaces l))
  | VFun f l => VFun f (map spaces l)
  | VBlock b l => VBlock b (map spaces l)
  end.

(** A list that the parser returns *)
Definition parsed_list (v : list tv) : Prop := exists l, glue l = l /\ tl_parse 0 l = Some v.

Section Values.
Variable V : Type.
Variable parse_typed : string -> list tk -> option V.
Variable print_typed : bool -> string -> V -> list tk.

(** Does the text of a value stay one value inside a declaration? *)
Definition solid (l : list tk) : Prop :=
  glue l = l
  /\ (forall t, In t l -> is_semi t = false /\ shape t <> KBang /\ is_curly t = false /\ is_bad t = false)
  /\ (exists t r, l = t :: r /\ is_blank t = false)
  /\ (exists t r, l = r ++ [t] /\ is_blank t = false).
(** A value of a known property that is printed in a way its grammar reads *)
Definition readable (minify : bool) (n : string) (v : V) : Prop :=
  solid (print_typed minify n v)
  /\ forall w w', blank w -> blank w' -> parse_typed n (w ++ print_typed minify n v ++ w') = Some v.
(** Tokens that the grammar of the property rejects, also when printed *)
Definition rejected (minify : bool) (n : string) (v : list tv) : Prop :=
  forall w w', blank w -> blank w' -> parse_typed n (w ++ print_tl minify v ++ w') = None.

(** An id that its printed names are read as *)
Definition known (i : pid) : Prop :=
  match i with
  | PVp n p => forall q, In q (vs_iter (vs_or_none p)) -> pid_from property_table (pfx_text q ++ n) = PVp n (vs_one q)
  | _ => pid_from property_table (pid_name i) = i
  end.
(** Token lists that printing keeps: when minifying, no comments; otherwise no empty fallbacks *)
Definition kept (minify : bool) (v : list tv) : Prop :=
  if minify then forallb no_comment v = true else forallb full v = true.
Definition is_space (v : list tv) : Prop := exists s, v = [VTok (KWs s)].
(** Values outside of any known grammar whose whitespace does not grow *)
Definition lasting (minify : bool) (d : decl V) (important : bool) : Prop :=
  if minify then True
  else match d with
       | DTyped _ _ => True
       | DUnparsed _ v => v <> [] /\ ~ is_space v
       | DCustom _ v => v <> [] /\ (is_space v -> important = false)
       end.
Definition curly_free (v : list tv) : Prop := forall b, ~ In (VBlock Curly b) v.
Definition no_delimiter (v : list tv) : Prop := ~ In (VTok KSemi) v /\ ~ In (VTok KBang) v.

(** A declaration the printer can write so that it is read again *)
Definition printable (minify : bool) (d : decl V) (important : bool) : Prop :=
  known (decl_id V d) /\ lasting minify d important /\
  match d with
  | DTyped i v => readable minify (pid_name i) v /\ (forall n, i <> PCustom n)
  | DUnparsed i v =>
      parsed_list v /\ kept minify v /\ no_delimiter v /\ curly_free v /\ rejected minify (pid_name i) v
      /\ i <> PAll /\ (forall n, i <> PCustom n)
  | DCustom n v =>
      parsed_list v /\ kept minify v /\ no_delimiter v /\ (dashed n = false -> curly_free v)
  end.
Definition printable_block (minify : bool) (b : dblock V) : Prop :=
  (forall d, In d (d_normal b) -> printable minify d false)
  /\ (forall d, In d (d_important b) -> printable minify d true).

(** What is written for a declaration: one for each prefix, in the order of the flags *)
Definition each_prefix (d : decl V) : list (decl V) :=
  match d with
  | DTyped (PVp n p) v => map (fun q => DTyped (PVp n (vs_one q)) v) (vs_iter p)
  | DUnparsed (PVp n p) v => map (fun q => DUnparsed (PVp n (vs_one q)) v) (vs_iter (vs_or_none p))
  | _ => [d]
  end.
(** and how its value is read again *)
Definition as_read (minify : bool) (d : decl V) : decl V :=
  match d with
  | DTyped i v => DTyped i v
  | DUnparsed i v => DUnparsed i (if minify then map spaces v else v)
  | DCustom n v => DCustom n (if minify then map spaces v else v)
  end.
Definition reread (minify : bool) (b : dblock V) : dblock V :=
  DBlock (map (as_read minify) (d_important b)) (map (as_read minify) (d_normal b)).
Definition written (minify : bool) (b : dblock V) : dblock V :=
  DBlock (map (as_read minify) (flat_map each_prefix (d_important b)))
         (map (as_read minify) (flat_map each_prefix (d_normal b))).

(** The name that a declaration with one prefix is written with *)
Definition written_name (d : decl V) : string :=
  match decl_id V d with
  | PVp n p => match vs_iter p with q :: _ => pfx_text q ++ n | [] => n end
  | i => pid_name i
  end.
(** A piece of text that writes a declaration *)
Definition writes (minify : bool) (p : list tk) (x : decl V * bool) : Prop :=
  exists w, blank w /\ states p (written_name (fst x)) (w ++ print_value V print_typed minify (fst x)) (snd x).
(** All declarations in the order they should be written *)
Definition to_write (b : dblock V) : list (decl V * bool) :=
  map (fun d => (d, false)) (flat_map each_prefix (d_normal b))
  ++ map (fun d => (d, true)) (flat_map each_prefix (d_important b)).
(** What the parameters must answer for the values of a block *)
Definition answered (minify : bool) (d : decl V) (important : bool) : Prop :=
  lasting minify d important /\
  match d with
  | DTyped i v => readable minify (pid_name i) v
  | DUnparsed i v => kept minify v /\ rejected minify (pid_name i) v
  | DCustom n v => kept minify v
  end.
Definition answered_block (minify : bool) (b : dblock V) : Prop :=
  (forall d, In d (d_normal b) -> answered minify d false)
  /\ (forall d, In d (d_important b) -> answered minify d true).
(** Without the declarations that CSS modules take out *)
Definition without_composes (b : dblock V) : dblock V :=
  DBlock (filter (fun d => negb (is_composes V d)) (d_important b))
         (filter (fun d => negb (is_composes V d)) (d_normal b)).
End Values.
