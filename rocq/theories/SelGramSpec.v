(** * What selector text stands for (Selectors 4, 17 and 3; CSS Nesting; the pseudo classes and elements of the standards)
    The relations say nothing about how text is read: they join the texts of the parts. *)
From Coq Require Import List Bool ZArith String.
Import ListNotations.
From Verif Require AnbSpec.
From Verif Require Import SelTextModel SelTextSpec.
Local Open Scope string_scope.

(** A word in any letter case *)
Definition word := AnbSpec.any_case.
Definition blank (l : list tok) : Prop := Forall (fun t => t = Ws) l.
Definition blanks (l : list tok) : Prop := blank l /\ l <> [].

(** ** Names *)
(** The tree structural pseudo classes (Selectors 4, 14; CSS Scoping) and the others without arguments *)
Definition tree_names : list (string * comp) := [
  ("root", Root); ("empty", Empty); ("scope", Scope); ("host", Host None);
  ("first-child", NthComp NthChild 0 1); ("last-child", NthComp NthLastChild 0 1); ("only-child", NthComp OnlyChild 0 1);
  ("first-of-type", NthComp NthOfType 0 1); ("last-of-type", NthComp NthLastOfType 0 1); ("only-of-type", NthComp OnlyOfType 0 1)].
Definition class_names : list (string * pclass) := [
  ("any-link", AnyLink NoPrefix); ("link", Link); ("visited", Visited); ("local-link", LocalLink); ("target", Target); ("target-within", TargetWithin);
  ("hover", Hover); ("active", Active); ("focus", Focus); ("focus-visible", FocusVisible); ("focus-within", FocusWithin);
  ("current", Current); ("past", Past); ("future", Future);
  ("playing", Playing); ("paused", Paused); ("seeking", Seeking); ("buffering", Buffering); ("stalled", Stalled); ("muted", Muted); ("volume-locked", VolumeLocked);
  ("open", Open); ("closed", Closed); ("modal", Modal); ("fullscreen", Fullscreen NoPrefix); ("picture-in-picture", PictureInPicture); ("popover-open", PopoverOpen);
  ("enabled", Enabled); ("disabled", Disabled); ("read-only", ReadOnly NoPrefix); ("read-write", ReadWrite NoPrefix); ("placeholder-shown", PlaceholderShown NoPrefix);
  ("autofill", Autofill NoPrefix); ("default", Default); ("checked", Checked); ("indeterminate", Indeterminate); ("blank", Blank); ("valid", Valid); ("invalid", Invalid);
  ("in-range", InRange); ("out-of-range", OutOfRange); ("required", Required); ("optional", Optional); ("user-valid", UserValid); ("user-invalid", UserInvalid);
  ("defined", Defined); ("active-view-transition", ActiveViewTransition);
  ("-webkit-any-link", AnyLink WebKit); ("-moz-any-link", AnyLink Moz); ("-webkit-full-screen", Fullscreen WebKit); ("-moz-full-screen", Fullscreen Moz); ("-ms-fullscreen", Fullscreen Ms);
  ("-moz-read-only", ReadOnly Moz); ("-moz-read-write", ReadWrite Moz); ("-moz-placeholder", PlaceholderShown Moz); ("-ms-input-placeholder", PlaceholderShown Ms);
  ("-webkit-autofill", Autofill WebKit); ("-o-autofill", Autofill Opera)].
(** The user action pseudo classes may follow a pseudo element *)
Definition action_names : list (string * pclass) := [
  ("hover", Hover); ("active", Active); ("focus", Focus); ("focus-visible", FocusVisible); ("focus-within", FocusWithin)].
(** The pseudo classes after [::-webkit-scrollbar] and its parts *)
Definition scrollbar_names : list (string * pclass) := [
  ("horizontal", ScrollbarClass Horizontal); ("vertical", ScrollbarClass Vertical); ("decrement", ScrollbarClass Decrement); ("increment", ScrollbarClass Increment);
  ("start", ScrollbarClass StartPiece); ("end", ScrollbarClass EndPiece); ("double-button", ScrollbarClass DoubleButton); ("single-button", ScrollbarClass SingleButton);
  ("no-button", ScrollbarClass NoButton); ("corner-present", ScrollbarClass CornerPresent); ("window-inactive", ScrollbarClass WindowInactive);
  ("enabled", Enabled); ("disabled", Disabled); ("hover", Hover); ("active", Active)].
Definition old_element_names : list (string * pelement) := [("before", Before); ("after", After); ("first-line", FirstLine); ("first-letter", FirstLetter)].
(** [::-ms-input-placeholder] is left out (C64_placeholder_refuted) *)
Definition element_names : list (string * pelement) := [
  ("before", Before); ("after", After); ("first-line", FirstLine); ("first-letter", FirstLetter);
  ("selection", Selection NoPrefix); ("target-text", TargetText); ("spelling-error", SpellingError); ("grammar-error", GrammarError);
  ("marker", Marker); ("placeholder", Placeholder NoPrefix); ("file-selector-button", FileSelectorButton NoPrefix); ("details-content", DetailsContent);
  ("backdrop", Backdrop NoPrefix); ("cue", Cue); ("cue-region", CueRegion); ("checkmark", Checkmark); ("picker-icon", PickerIcon); ("view-transition", ViewTransition);
  ("-moz-selection", Selection Moz); ("-webkit-input-placeholder", Placeholder WebKit); ("-moz-placeholder", Placeholder Moz);
  ("-webkit-backdrop", Backdrop WebKit); ("-webkit-file-upload-button", FileSelectorButton WebKit); ("-ms-browse", FileSelectorButton Ms)].
Definition all_element_names : list (string * pelement) := ("-ms-input-placeholder", Placeholder Ms) :: element_names.
Definition scrollbar_elements : list (string * pelement) := [
  ("-webkit-scrollbar", ScrollbarElement Scrollbar); ("-webkit-scrollbar-button", ScrollbarElement Button); ("-webkit-scrollbar-track", ScrollbarElement Track);
  ("-webkit-scrollbar-track-piece", ScrollbarElement TrackPiece); ("-webkit-scrollbar-thumb", ScrollbarElement Thumb);
  ("-webkit-scrollbar-corner", ScrollbarElement Corner); ("-webkit-resizer", ScrollbarElement Resizer)].
(** The pseudo elements that may follow [::slotted()] (CSS Scoping, 3.3) *)
Definition slot_names : list (string * pelement) := [
  ("before", Before); ("after", After); ("marker", Marker); ("placeholder", Placeholder NoPrefix); ("file-selector-button", FileSelectorButton NoPrefix)].
Definition nth_names : list (string * nth_type) := [
  ("nth-child", NthChild); ("nth-last-child", NthLastChild); ("nth-of-type", NthOfType); ("nth-last-of-type", NthLastOfType); ("nth-col", NthCol); ("nth-last-col", NthLastCol)].
Definition vt_names : list (string * vt_kind) := [
  ("view-transition-group", VtGroup); ("view-transition-image-pair", VtImagePair); ("view-transition-old", VtOld); ("view-transition-new", VtNew)].
(** No name of the list, in any letter case *)
Definition no_name {A} (l : list (string * A)) (n : string) : Prop := forall k v, In (k, v) l -> ~ word k n.
Definition function_names : list (string * unit) := map (fun s => (s, tt)) [
  "nth-child"; "nth-last-child"; "nth-of-type"; "nth-last-of-type"; "nth-col"; "nth-last-col"; "is"; "where"; "has"; "host"; "not"; "-webkit-any"; "-moz-any";
  "lang"; "dir"; "state"; "active-view-transition-type"].
Definition element_functions : list (string * unit) := map (fun s => (s, tt)) [
  "part"; "slotted"; "cue"; "cue-region"; "picker"; "view-transition-group"; "view-transition-image-pair"; "view-transition-old"; "view-transition-new"].
(** CSS Values, 4.2: the words no author-defined identifier may be *)
Definition css_wide : list (string * unit) := map (fun s => (s, tt)) ["initial"; "inherit"; "unset"; "default"; "revert"; "revert-layer"].

Local Open Scope list_scope.

(** ** Type selectors *)
Inductive type_text : list tok -> list comp -> Prop :=
| type_name s : type_text [Ident s] [Local s]
| type_any : type_text [Delim Star] [Univ]
| type_none_name s : type_text [Delim Bar; Ident s] [NoNs; Local s]
| type_none_any : type_text [Delim Bar; Delim Star] [NoNs; Univ]
| type_all_name s : type_text [Delim Star; Delim Bar; Ident s] [AnyNs; Local s]
| type_all_any : type_text [Delim Star; Delim Bar; Delim Star] [AnyNs; Univ]
| type_ns_name p s : type_text [Ident p; Delim Bar; Ident s] [Ns p; Local s]
| type_ns_any p : type_text [Ident p; Delim Bar; Delim Star] [Ns p; Univ].

(** ** Attribute selectors *)
Section Attributes.
(** The HTML attributes whose values do not depend on the letter case *)
Variable html : string -> bool.
Inductive attr_name : list tok -> option attr_ns -> string -> Prop :=
| attr_plain s : attr_name [Ident s] None s
| attr_none s : attr_name [Delim Bar; Ident s] None s
| attr_all s : attr_name [Delim Star; Delim Bar; Ident s] (Some AttrAny) s
| attr_in p s : attr_name [Ident p; Delim Bar; Ident s] (Some (AttrNs p)) s.
Inductive value_text : tok -> string -> Prop := value_ident s : value_text (Ident s) s | value_string s : value_text (Str s) s.
Inductive flag_text : list tok -> case_flag -> Prop :=
| flag_none w : blank w -> flag_text w DependsOnName
| flag_i w n w' : blank w -> word "i" n -> blank w' -> flag_text (w ++ [Ident n] ++ w') Insensitive
| flag_s w n w' : blank w -> word "s" n -> blank w' -> flag_text (w ++ [Ident n] ++ w') ExplicitSensitive.
(** A letter from A to Z *)
Definition has_capital (s : string) : Prop := exists a c b, s = (a ++ String c b)%string /\ 65 <= Ascii.nat_of_ascii c <= 90.
(** With a namespace, or with capitals, the selector has the general form *)
Inductive attr_comp (ns : option attr_ns) (name : string) (v : option (attr_op * string * case_flag * bool)) : comp -> Prop :=
| attr_has : ns = None -> v = None -> attr_comp ns name v (AttrExists name)
| attr_simple o s f h : ns = None -> ~ has_capital name -> v = Some (o, s, f, h) -> attr_comp ns name v (AttrValue name o s f h)
| attr_general : ns <> None \/ has_capital name /\ v <> None -> attr_comp ns name v (AttrOther ns name v).
(** Without a flag, HTML says how the value is compared; [small] is the name in small letters *)
Inductive by_html (ns : option attr_ns) (name : string) : case_flag -> bool -> Prop :=
| html_asks small : word small name -> ~ has_capital small -> ns = None -> by_html ns name DependsOnName (html small)
| html_ns : ns <> None -> by_html ns name DependsOnName false
| html_flag f : f <> DependsOnName -> by_html ns name f false.
Inductive attr_text : list tok -> comp -> Prop :=
| attr_exists w t w' ns name c : blank w -> attr_name t ns name -> blank w' -> attr_comp ns name None c -> attr_text (w ++ t ++ w') c
| attr_equals w t w1 o w2 v s tf ns name f h c : blank w -> attr_name t ns name -> blank w1 -> blank w2 -> value_text v s -> flag_text tf f -> by_html ns name f h ->
    attr_comp ns name (Some (o, s, f, h)) c -> attr_text (w ++ t ++ w1 ++ [Op o] ++ w2 ++ [v] ++ tf) c.
End Attributes.

(** ** Combinators *)
Section Combinators.
Variable deep_allowed : bool.
Inductive comb_text : list tok -> combinator -> Prop :=
| comb_space w : blanks w -> comb_text w Descendant
| comb_child w w' : blank w -> blank w' -> comb_text (w ++ [Delim Gt] ++ w') Child
| comb_next w w' : blank w -> blank w' -> comb_text (w ++ [Delim Plus] ++ w') NextSibling
| comb_later w w' : blank w -> blank w' -> comb_text (w ++ [Delim Tilde] ++ w') LaterSibling
(** The Shadow DOM combinators of Vue and others *)
| comb_deep_descendant w w' : deep_allowed = true -> blank w -> blank w' -> comb_text (w ++ [Delim Gt; Delim Gt; Delim Gt] ++ w') DeepDescendant
| comb_deep w n w' : deep_allowed = true -> blank w -> word "deep" n -> blank w' -> comb_text (w ++ [Delim Slash; Ident n; Delim Slash] ++ w') Deep.
(** The combinator a relative selector starts with *)
Inductive lead_text : list tok -> combinator -> Prop :=
| lead_child : lead_text [Delim Gt] Child
| lead_next : lead_text [Delim Plus] NextSibling
| lead_later : lead_text [Delim Tilde] LaterSibling.
End Combinators.

(** ** Lists of words *)
Inductive commas {A} (one : list tok -> A -> Prop) : list tok -> list A -> Prop :=
| commas_one t x : one t x -> commas one t [x]
| commas_more t x r l : one t x -> commas one r l -> commas one (t ++ [Comma] ++ r) (x :: l).
Inductive padded {A} (one : tok -> A -> Prop) : list tok -> A -> Prop :=
| padded_token w t w' x : blank w -> one t x -> blank w' -> padded one (w ++ [t] ++ w') x.
Inductive custom_name : tok -> string -> Prop := custom_name_of s : no_name css_wide s -> custom_name (Ident s) s.
Inductive words : list tok -> list string -> Prop :=
| words_one w s w' : blank w -> blank w' -> words (w ++ [Ident s] ++ w') [s]
| words_more w s r l : blank w -> words r l -> words (w ++ [Ident s; Ws] ++ r) (s :: l).
Inductive vt_text : list tok -> vt_part -> Prop :=
| vt_all cs : vt_text (Delim Star :: flat_map (fun s => [Delim Dot; Ident s]) cs) (VtPart (Some AllParts) cs)
| vt_named s cs : no_name css_wide s -> vt_text (Ident s :: flat_map (fun s => [Delim Dot; Ident s]) cs) (VtPart (Some (PartName s)) cs)
| vt_classed cs : cs <> [] -> vt_text (flat_map (fun s => [Delim Dot; Ident s]) cs) (VtPart None cs).

(** ** Pseudo classes after a pseudo element *)
Inductive states (names : list (string * pclass)) : list tok -> list comp -> Prop :=
| states_none : states names [] []
| states_more n k c t l : In (k, c) names -> word k n -> states names t l -> states names ([Colon; Ident n] ++ t) (PClass c :: l).

(** ** Selectors.  [combs] and [elems] say whether combinators and pseudo elements may stand here.  [nest] says whether [&] may stand
    anywhere.
    Selectors 4 allows combinators in the arguments of [:is()] and the like also within [:host()] and [::slotted()]; the code does not
    (C64_slotted_refuted), so [combs] is handed down. *)
Record mode := Mode { combs : bool; elems : bool }.
Definition inner (m : mode) : mode := Mode (combs m) false.
Definition only_compound : mode := Mode false false.
(** Tokens that no selector starts with *)
Definition hopeless (t : tok) : bool :=
  match t with Str _ | Op _ | Nth _ | Fun _ _ | Junk _ | Delim (OtherDelim | Gt | Plus | Tilde | Slash) => true | _ => false end.
(** A selector that is relative to [x] *)
Definition lead (k : combinator) (x : comp) (s : sel) : sel := x :: Comb k :: s.

(** The nesting selector stands anywhere in it *)
Fixpoint has_nesting (c : comp) : bool :=
  match c with
  | Nesting => true
  | Not l | Is l | Where l | Any _ l | Has l | NthOf _ _ _ l => existsb (existsb has_nesting) l
  | Host (Some s) | Slotted s | CueFn _ s => existsb has_nesting s
  | _ => false
  end.

Section Grammar.
Variable html : string -> bool.
Variable deep_allowed nest : bool.
Inductive simple_text : mode -> list tok -> comp -> Prop :=
| simple_id m s : simple_text m [Hash s] (Id s)
| simple_class_name m s : simple_text m [Delim Dot; Ident s] (Class s)
| simple_attr m a c : attr_text html a c -> simple_text m [Square a] c
| simple_nesting m : nest = true -> simple_text m [Delim Amp] Nesting
| simple_tree m n k c : In (k, c) tree_names -> word k n -> simple_text m [Colon; Ident n] c
| simple_pseudo m n k c : In (k, c) class_names -> word k n -> simple_text m [Colon; Ident n] (PClass c)
(** a name that the standards do not know *)
| simple_unknown m n : no_name tree_names n -> no_name class_names n -> no_name scrollbar_names n -> no_name old_element_names n ->
    simple_text m [Colon; Ident n] (PClass (CustomClass n))
| simple_is m n a l : word "is" n -> forgiving_text (inner m) a l -> simple_text m [Colon; Fun n a] (Is l)
| simple_where m n a l : word "where" n -> forgiving_text (inner m) a l -> simple_text m [Colon; Fun n a] (Where l)
| simple_webkit_any m n a l : word "-webkit-any" n -> forgiving_text (inner m) a l -> simple_text m [Colon; Fun n a] (Any WebKit l)
| simple_moz_any m n a l : word "-moz-any" n -> forgiving_text (inner m) a l -> simple_text m [Colon; Fun n a] (Any Moz l)
| simple_not m n a l : word "not" n -> list_text (inner m) a l -> simple_text m [Colon; Fun n a] (Not l)
| simple_has m n a l : word "has" n -> relatives_text (inner m) a l -> simple_text m [Colon; Fun n a] (Has l)
| simple_host m n a s : word "host" n -> selector_text only_compound a s -> simple_text m [Colon; Fun n a] (Host (Some s))
| simple_nth m n k t w s w' a b : In (k, t) nth_names -> word k n -> blank w -> AnbSpec.anb_text s a b -> AnbSpec.int32 a -> AnbSpec.int32 b -> b <> (-2147483648)%Z -> blank w' ->
    simple_text m [Colon; Fun n (w ++ [Nth s] ++ w')] (NthComp t a b)
| simple_nth_of m n k t w s w' o x a b l : In (k, t) nth_names -> word k n -> t = NthChild \/ t = NthLastChild -> blank w -> AnbSpec.anb_text s a b -> AnbSpec.int32 a -> AnbSpec.int32 b ->
    b <> (-2147483648)%Z -> blank w' -> word "of" o -> list_text (inner m) x l -> simple_text m [Colon; Fun n (w ++ [Nth s] ++ w' ++ [Ident o] ++ x)] (NthOf t a b l)
| simple_lang m n a l : word "lang" n -> commas (padded value_text) a l -> simple_text m [Colon; Fun n a] (PClass (Lang l))
| simple_ltr m n w d w' : word "dir" n -> blank w -> word "ltr" d -> blank w' -> simple_text m [Colon; Fun n (w ++ [Ident d] ++ w')] (PClass (Dir false))
| simple_rtl m n w d w' : word "dir" n -> blank w -> word "rtl" d -> blank w' -> simple_text m [Colon; Fun n (w ++ [Ident d] ++ w')] (PClass (Dir true))
| simple_state m n a s : word "state" n -> padded custom_name a s -> simple_text m [Colon; Fun n a] (PClass (State s))
| simple_transition m n a l : word "active-view-transition-type" n -> commas (padded custom_name) a l -> simple_text m [Colon; Fun n a] (PClass (TransitionType l))
| simple_unknown_fn m n a : no_name function_names n -> no_name old_element_names n -> simple_text m [Colon; Fun n a] (PClass (CustomClassFn n a))
with simples_text : mode -> list tok -> list comp -> Prop :=
| simples_none m : simples_text m [] []
| simples_more m t c r l : simple_text m t c -> simples_text m r l -> simples_text m (t ++ r) (c :: l)
(** [&], a type selector and simple selectors, each of them if wanted *)
with compound_text : mode -> list tok -> list comp -> Prop :=
| compound_plain m t cs : simples_text m t cs -> compound_text m t cs
| compound_type m y ty t cs : type_text y ty -> simples_text m t cs -> compound_text m (y ++ t) (ty ++ cs)
| compound_nesting m y ty t cs : nest = true -> type_text y ty -> simples_text m t cs -> compound_text m (Delim Amp :: y ++ t) (Nesting :: ty ++ cs)
(** The pseudo element at the end with what may follow it *)
with tail_text : list tok -> list comp -> Prop :=
| tail_old n k e t cs : In (k, e) old_element_names -> word k n -> states action_names t cs -> tail_text ([Colon; Ident n] ++ t) ([Comb PseudoElement; PElement e] ++ cs)
| tail_element n k e t cs : In (k, e) element_names -> word k n -> states action_names t cs -> tail_text ([Colon; Colon; Ident n] ++ t) ([Comb PseudoElement; PElement e] ++ cs)
| tail_scrollbar n k e t cs : In (k, e) scrollbar_elements -> word k n -> states scrollbar_names t cs -> tail_text ([Colon; Colon; Ident n] ++ t) ([Comb PseudoElement; PElement e] ++ cs)
| tail_unknown n t cs : no_name element_names n -> no_name scrollbar_elements n -> ~ word "-ms-input-placeholder" n -> states action_names t cs ->
    tail_text ([Colon; Colon; Ident n] ++ t) (PElement (CustomElement n) :: cs)
| tail_cue n a s t cs : word "cue" n -> selector_text (Mode true true) a s -> states action_names t cs -> tail_text ([Colon; Colon; Fun n a] ++ t) ([Comb PseudoElement; CueFn false s] ++ cs)
| tail_cue_region n a s t cs : word "cue-region" n -> selector_text (Mode true true) a s -> states action_names t cs -> tail_text ([Colon; Colon; Fun n a] ++ t) ([Comb PseudoElement; CueFn true s] ++ cs)
| tail_picker n w s w' t cs : word "picker" n -> blank w -> blank w' -> states action_names t cs -> tail_text ([Colon; Colon; Fun n (w ++ [Ident s] ++ w')] ++ t) ([Comb PseudoElement; PElement (Picker s)] ++ cs)
| tail_transition n k v w a w' p t cs : In (k, v) vt_names -> word k n -> blank w -> vt_text a p -> blank w' -> states action_names t cs ->
    tail_text ([Colon; Colon; Fun n (w ++ a ++ w')] ++ t) ([Comb PseudoElement; PElement (VtFn v p)] ++ cs)
| tail_unknown_fn n a t cs : no_name element_functions n -> states action_names t cs -> tail_text ([Colon; Colon; Fun n a] ++ t) (PElement (CustomElementFn n a) :: cs)
| tail_part n a l t cs : word "part" n -> words a l -> states class_names t cs -> tail_text ([Colon; Colon; Fun n a] ++ t) ([Comb PartComb; Part l] ++ cs)
| tail_part_element n a l t cs n' k e t' cs' : word "part" n -> words a l -> states class_names t cs -> In (k, e) element_names -> word k n' -> states action_names t' cs' ->
    tail_text ([Colon; Colon; Fun n a] ++ t ++ [Colon; Colon; Ident n'] ++ t') ([Comb PartComb; Part l] ++ cs ++ [Comb PseudoElement; PElement e] ++ cs')
| tail_slotted n a s : word "slotted" n -> selector_text only_compound a s -> tail_text [Colon; Colon; Fun n a] [Comb SlotAssignment; Slotted s]
| tail_slotted_element n a s n' k e : word "slotted" n -> selector_text only_compound a s -> In (k, e) slot_names -> word k n' ->
    tail_text [Colon; Colon; Fun n a; Colon; Colon; Ident n'] [Comb SlotAssignment; Slotted s; Comb PseudoElement; PElement e]
with complex_text : mode -> list tok -> sel -> Prop :=
| complex_end m t cs : compound_text m t cs -> cs <> [] -> complex_text m t cs
| complex_tail m t cs y ys : compound_text m t cs -> elems m = true -> tail_text y ys -> complex_text m (t ++ y) (cs ++ ys)
| complex_more m t cs y k r s : compound_text m t cs -> cs <> [] -> combs m = true -> comb_text deep_allowed y k -> complex_text m r s -> complex_text m (t ++ y ++ r) (cs ++ Comb k :: s)
with selector_text : mode -> list tok -> sel -> Prop :=
| selector_of m w t w' s : blank w -> complex_text m t s -> blank w' -> selector_text m (w ++ t ++ w') s
with list_text : mode -> list tok -> list sel -> Prop :=
| list_one m t s : selector_text m t s -> list_text m t [s]
| list_more m t s r l : selector_text m t s -> list_text m r l -> list_text m (t ++ [Comma] ++ r) (s :: l)
(** Lists whose invalid selectors are dropped *)
with forgiving_text : mode -> list tok -> list sel -> Prop :=
| forgiving_one m t s : selector_text m t s -> forgiving_text m t [s]
| forgiving_none m w : blank w -> forgiving_text m w []
| forgiving_bad m w x t : blank w -> hopeless x = true -> Forall (fun y => y <> Comma) t -> forgiving_text m (w ++ x :: t) []
| forgiving_more m t s r l : selector_text m t s -> forgiving_text m r l -> forgiving_text m (t ++ [Comma] ++ r) (s :: l)
| forgiving_skip_none m w r l : blank w -> forgiving_text m r l -> forgiving_text m (w ++ [Comma] ++ r) l
| forgiving_skip_bad m w x t r l : blank w -> hopeless x = true -> Forall (fun y => y <> Comma) t -> forgiving_text m r l -> forgiving_text m (w ++ x :: t ++ [Comma] ++ r) l
(** The relative selectors of [:has()]; [:scope] stands for the element itself *)
with relatives_text : mode -> list tok -> list sel -> Prop :=
| relatives_one m t s : relative_text m t s -> relatives_text m t [s]
| relatives_more m t s r l : relative_text m t s -> relatives_text m r l -> relatives_text m (t ++ [Comma] ++ r) (s :: l)
with relative_text : mode -> list tok -> sel -> Prop :=
| relative_plain m t s : selector_text m t s -> relative_text m t s
| relative_lead m w y k t s : blank w -> lead_text y k -> combs m = true -> selector_text m t s -> relative_text m (w ++ y ++ t) (lead k Scope s).

(** The selectors of a nested rule (CSS Nesting, 3): they are relative to [&] unless it stands in them *)
Inductive nested_text : list tok -> sel -> Prop :=
| nested_lead w y k t s : blank w -> lead_text y k -> selector_text (Mode true true) t s -> nested_text (w ++ y ++ t) (lead k Nesting s)
| nested_has t s : selector_text (Mode true true) t s -> existsb has_nesting s = true -> nested_text t s
| nested_without t s : selector_text (Mode true true) t s -> existsb has_nesting s = false -> nested_text t (lead Descendant Nesting s).
Inductive nesteds_text : list tok -> list sel -> Prop :=
| nesteds_one t s : nested_text t s -> nesteds_text t [s]
| nesteds_more t s r l : nested_text t s -> nesteds_text r l -> nesteds_text (t ++ [Comma] ++ r) (s :: l).
End Grammar.
