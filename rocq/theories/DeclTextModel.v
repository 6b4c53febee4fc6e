(** * Model of the text of declaration blocks: [DeclarationBlock::parse] and [to_css] (src/declaration.rs),
    [Property::parse] and [to_css] (src/properties/mod.rs), [TokenList] (src/properties/custom.rs)

    The text is a list of component values with whitespace and comments.  Escapes and the spelling
    of tokens are left to C50 and C48.  The grammars of the individual properties are parameters.
    Colours, urls, dimensions and dashed names inside a token list are kept as the tokens they were
    read from; [env()] has no indices. *)
From Coq Require Import List Bool String Arith.
From Verif Require Import MediaModel VendorPrefixModel PropertyTable.
Import ListNotations.
Local Open Scope string_scope.
Local Open Scope list_scope.

Inductive bracket := Round | Square | Curly.
(** cssparser tokens; [KOther] is any token that is not listed, with its text *)
Inductive tk :=
| KWs (s : string)
| KComment (s : string)
| KIdent (s : string)
| KColon | KSemi | KComma | KBang
| KBad
| KCloseCurly
| KAt (s : string)
| KOther (s : string)
| KFun (name : string) (body : list tk)
| KBlock (b : bracket) (body : list tk).

(** [Token::is_parse_error] *)
Definition is_bad (t : tk) : bool := match t with KBad | KCloseCurly => true | _ => false end.
(** What [Parser::next] and [skip_whitespace] skip *)
Definition is_blank (t : tk) : bool := match t with KWs _ | KComment _ => true | _ => false end.
Fixpoint skip (l : list tk) : list tk :=
  match l with t :: r => if is_blank t then skip r else l | [] => [] end.

(** ** Token lists *)

(** custom.rs:219-247 [TokenOrValue].  The closing brackets that the vector also contains are part
    of [VBlock]; [VRef] is [Var] and [Env]. *)
Inductive tv :=
| VTok (t : tk)
| VRef (f : string) (name : string) (fallback : option (list tv))
| VFun (f : string) (args : list tv)
| VBlock (b : bracket) (body : list tv).

(** custom.rs:255-260 *)
Definition v_is_ws (v : tv) : bool := match v with VTok (KWs _) => true | _ => false end.
(** custom.rs:578-580 [starts_with_whitespace] *)
Definition starts_ws (l : list tv) : bool := match l with v :: _ => v_is_ws v | [] => false end.
(** custom.rs:299-312: one leading and one trailing whitespace are dropped if there are two tokens.
    A block counts as one token here and as at least two in the vector, which makes no difference:
    a single token that is not whitespace is kept either way. *)
Definition drop_first (l : list tv) : list tv := if starts_ws l then tl l else l.
Definition trim (l : list tv) : list tv :=
  if Nat.leb 2 (List.length l) then rev (drop_first (rev (drop_first l))) else l.

Fixpoint v_skip (l : list tv) : list tv :=
  match l with
  | VTok t :: r => if is_blank t then v_skip r else l
  | _ => l
  end.
Definition dashed (s : string) : bool := match strip_prefix "--" s with Some _ => true | None => false end.

(** custom.rs:321, 369 *)
Definition max_depth : nat := 500.
Definition deep (d : nat) : bool := Nat.ltb max_depth d.

Definition all_of {A} (f : tk -> option A) : list tk -> option (list A) :=
  fix go l := match l with
              | [] => Some []
              | t :: r => match f t, go r with Some v, Some vs => Some (v :: vs) | _, _ => None end
              end.

(** custom.rs:1195-1209 [Variable::parse], 1358-1380 [EnvironmentVariable::parse_nested], on the
    parsed tokens of the argument.  [too_deep] is the depth check of the fallback. *)
Definition ref_of (f : string) (too_deep : bool) (vs : list tv) : option tv :=
  match v_skip vs with
  | VTok (KIdent n) :: r =>
      if String.eqb f "var" && negb (dashed n) then None else
      match v_skip r with
      | [] => Some (VRef f n None)
      | VTok KComma :: r' => if too_deep then None else Some (VRef f n (Some (trim r')))
      | _ => None
      end
  | _ => None
  end.

(** custom.rs:363-463 [parse_into], one token at depth [d] *)
Fixpoint parse_tk (d : nat) (t : tk) {struct t} : option tv :=
  match t with
  | KFun f body =>
      match all_of (parse_tk (S d)) body with
      | None => None
      | Some vs =>
          if String.eqb f "var" then ref_of f (deep (S d)) vs
          else if String.eqb f "env" then ref_of f (deep (S (S d))) vs
          else if deep (S d) then None else Some (VFun f (trim vs))
      end
  | KBlock b body =>
      match all_of (parse_tk (S d)) body with
      | None => None
      | Some vs => if deep (S d) then None else Some (VBlock b vs)
      end
  | _ => if is_bad t then None else Some (VTok t)
  end.
(** custom.rs:291-313 [TokenList::parse] *)
Definition tl_parse (d : nat) (l : list tk) : option (list tv) :=
  if deep d then None else option_map trim (all_of (parse_tk d) l).

(** printer.rs [whitespace] *)
Definition ws (minify : bool) : list tk := if minify then [] else [KWs " "].
(** printer.rs [newline]; the indentation is opaque *)
Definition line (minify : bool) (indent : string) : list tk := if minify then [] else [KWs indent].

(** custom.rs:488-555 [to_css], 841-923, 1211-1225, 1382-1402, 1428-1437 *)
Fixpoint print_tv (minify : bool) (v : tv) {struct v} : list tk :=
  let print := flat_map (print_tv minify) in
  match v with
  | VTok (KWs s) => [KWs (if minify then " " else s)]
  | VTok (KComment s) => if minify then [] else [KComment s]
  | VTok t => [t]
  | VRef f n None => [KFun f [KIdent n]]
  | VRef f n (Some l) =>
      [KFun f (KIdent n :: KComma :: (if starts_ws l then [] else ws minify) ++ print l)]
  | VFun f l => [KFun f (print l)]
  | VBlock b l => [KBlock b (print l)]
  end.
Definition print_tl (minify : bool) (l : list tv) : list tk := flat_map (print_tv minify) l.

(** ** The tokenizer: tokens whose texts run together.  Only the cases of names, brackets and
    whitespace; numbers and delimiters can run together as well. *)
Definition glues (a b : tk) : option tk :=
  match a, b with
  | KWs s, KWs t => Some (KWs (s ++ t))
  | KIdent s, KIdent t => Some (KIdent (s ++ t))
  | KAt s, KIdent t => Some (KAt (s ++ t))
  | KIdent s, KFun f l => Some (KFun (s ++ f) l)
  | KIdent s, KBlock Round l => Some (KFun s l)
  | _, _ => None
  end.
Definition glue_cons (t : tk) (l : list tk) : list tk :=
  match l with
  | u :: r => match glues t u with Some w => w :: r | None => t :: l end
  | [] => [t]
  end.
Fixpoint glue_tk (t : tk) : tk :=
  let glue := fix go (l : list tk) : list tk := match l with [] => [] | x :: r => glue_cons (glue_tk x) (go r) end in
  match t with
  | KFun f l => KFun f (glue l)
  | KBlock b l => KBlock b (glue l)
  | _ => t
  end.
Fixpoint glue (l : list tk) : list tk := match l with [] => [] | x :: r => glue_cons (glue_tk x) (glue r) end.

(** ** Declarations *)
Section Values.
(** The values of all known properties, and the grammar and printer of each *)
Variable V : Type.
Variable parse_typed : string -> list tk -> option V.
Variable print_typed : bool -> string -> V -> list tk.

(** properties/mod.rs:684-697 [Property] *)
Inductive decl :=
| DTyped (i : pid) (v : V)
| DUnparsed (i : pid) (v : list tv)
| DCustom (n : string) (v : list tv).

(** declaration.rs:61-68 *)
Record dblock := DBlock { d_important : list decl; d_normal : list decl }.

(** properties/mod.rs:700-725 [Property::parse]; the grammar does not depend on the prefix *)
Definition parse_property (i : pid) (l : list tk) : option decl :=
  match i with
  | PCustom n => option_map (DCustom n) (tl_parse 0 l)
  | PAll => option_map (DTyped PAll) (parse_typed "all" l)
  | _ =>
      match parse_typed (pid_name i) l with
      | Some v => Some (DTyped i v)
      | None => option_map (DUnparsed i) (tl_parse 0 l)
      end
  end.

Fixpoint before (stop : tk -> bool) (l : list tk) : list tk :=
  match l with t :: r => if stop t then [] else t :: before stop r | [] => [] end.
Fixpoint from (stop : tk -> bool) (l : list tk) : list tk :=
  match l with t :: r => if stop t then l else from stop r | [] => [] end.
Definition is_semi (t : tk) : bool := match t with KSemi => true | _ => false end.
Definition is_curly (t : tk) : bool := match t with KBlock Curly _ => true | _ => false end.
(** declaration.rs:518-522: the delimiters of a value *)
Definition stops (i : pid) (t : tk) : bool :=
  match t, i with
  | KBang, _ => true
  | KBlock Curly _, PCustom n => negb (dashed n)
  | KBlock Curly _, _ => true
  | _, _ => false
  end.
(** declaration.rs:524-530: [!important] and the end *)
Definition parse_end (l : list tk) : option bool :=
  match skip l with
  | [] => Some false
  | KBang :: r =>
      match skip r with
      | KIdent s :: r' =>
          if ieq s "important" then match skip r' with [] => Some true | _ => None end else None
      | _ => None
      end
  | _ => None
  end.
(** declaration.rs:508-537 [parse_declaration], after the colon and up to the semicolon *)
Definition parse_decl (name : string) (l : list tk) : option (decl * bool) :=
  let i := pid_from property_table name in
  match parse_property i (before (stops i) l), parse_end (from (stops i) l) with
  | Some d, Some important => Some (d, important)
  | _, _ => None
  end.

(** cssparser [RuleBodyParser::next] for [PropertyDeclarationParser] (declaration.rs:459-506): the
    results of the items in order *)
Definition after_semi (l : list tk) : list tk := tl (from is_semi l).
Fixpoint items (fuel : nat) (l : list tk) : list (option (decl * bool)) :=
  match fuel with
  | 0 => [None]
  | S k =>
      match l with
      | [] => []
      | t :: r =>
          match t with
          | KWs _ | KComment _ | KSemi | KCloseCurly => items k r
          | KIdent n =>
              match skip (before is_semi r) with
              | KColon :: v => parse_decl n v
              | _ => None
              end :: items k (after_semi r)
          | KAt _ => None :: items k (tl (from (fun t => is_semi t || is_curly t) r))
          | _ => None :: items k (after_semi r)
          end
      end
  end.

(** declaration.rs:84-97: stop at the first error, or drop it *)
Fixpoint collect (recover : bool) (l : list (option (decl * bool))) : option dblock :=
  match l with
  | [] => Some (DBlock [] [])
  | None :: r => if recover then collect recover r else None
  | Some (d, important) :: r =>
      match collect recover r with
      | Some b =>
          Some (if important then DBlock (d :: d_important b) (d_normal b)
                else DBlock (d_important b) (d :: d_normal b))
      | None => None
      end
  end.
(** declaration.rs:72-98 [parse] of a text *)
Definition parse_block (recover : bool) (text : list tk) : option dblock :=
  let l := glue text in collect recover (items (S (List.length l)) l).

(** properties/mod.rs:820-827 *)
Definition print_important (minify important : bool) : list tk :=
  if important then ws minify ++ [KBang; KIdent "important"] else [].
Fixpoint join (sep : list tk) (l : list (list tk)) : list tk :=
  match l with
  | [] => []
  | [x] => x
  | x :: r => x ++ sep ++ join sep r
  end.
(** properties/mod.rs:775-793 [value_to_css] *)
Definition print_value (minify : bool) (d : decl) : list tk :=
  match d with
  | DTyped i v => print_typed minify (pid_name i) v
  | DUnparsed _ v | DCustom _ v => print_tl minify v
  end.
Definition decl_id (d : decl) : pid := match d with DTyped i _ | DUnparsed i _ => i | DCustom n _ => PCustom n end.
(** properties/mod.rs:829-852: a typed property whose prefix is empty prints nothing; the others
    print without prefix *)
Definition decl_prefixes (d : decl) : list pfx :=
  match d with
  | DTyped (PVp _ p) _ => vs_iter p
  | _ => vs_iter (vs_or_none (pid_prefix (decl_id d)))
  end.
(** properties/mod.rs:804-873 [to_css] *)
Definition print_decl (minify : bool) (indent : string) (d : decl) (important : bool) : list tk :=
  match d with
  | DCustom n v =>
      KIdent n :: KColon :: (if starts_ws v then [] else ws minify) ++ print_value minify d
        ++ print_important minify important
  | _ =>
      join (KSemi :: line minify indent)
        (map (fun p => KIdent (pfx_text p ++ pid_name (decl_id d)) :: KColon :: ws minify
                         ++ print_value minify d ++ print_important minify important)
             (decl_prefixes d))
  end.

(** declaration.rs:126-151 [to_css]; [i] is the counter and [len] the number of declarations *)
Fixpoint print_all (minify : bool) (indent : string) (len i : nat) (l : list (decl * bool)) : list tk :=
  match l with
  | [] => []
  | (d, important) :: r =>
      print_decl minify indent d important
        ++ (if Nat.eqb i (len - 1) then [] else KSemi :: ws minify)
        ++ print_all minify indent len (S i) r
  end.
Definition in_order (b : dblock) : list (decl * bool) :=
  map (fun d => (d, false)) (d_normal b) ++ map (fun d => (d, true)) (d_important b).
Definition dlen (b : dblock) : nat := List.length (d_normal b) + List.length (d_important b).
Definition print_block (minify : bool) (indent : string) (b : dblock) : list tk :=
  print_all minify indent (dlen b) 0 (in_order b).

Definition is_composes (d : decl) : bool :=
  match d with DTyped (PPlain n) _ => String.eqb n "composes" | _ => false end.
(** declaration.rs:196-234 [to_css_declarations], where [composes] is not an error *)
Fixpoint print_lines (minify modules nested : bool) (indent : string) (len i : nat)
    (l : list (decl * bool)) : list tk :=
  match l with
  | [] => []
  | (d, important) :: r =>
      if modules && is_composes d then print_lines minify modules nested indent len i r
      else (if Nat.ltb 0 i then line minify indent else [])
             ++ print_decl minify indent d important
             ++ (if negb (Nat.eqb i (len - 1)) || negb minify || nested then [KSemi] else [])
             ++ print_lines minify modules nested indent len (S i) r
  end.
Definition print_declarations (minify modules nested : bool) (indent : string) (b : dblock) : list tk :=
  print_lines minify modules nested indent (dlen b) 0 (in_order b).
(** declaration.rs:155-169 [to_css_block], between the braces *)
Definition print_body (minify modules : bool) (indent outer : string) (b : dblock) : list tk :=
  line minify indent ++ print_declarations minify modules false indent b ++ line minify outer.
End Values.
Arguments DTyped {V}. Arguments DUnparsed {V}. Arguments DCustom {V}.
Arguments DBlock {V}. Arguments d_important {V}. Arguments d_normal {V}.
