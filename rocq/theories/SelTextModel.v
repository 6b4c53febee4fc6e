(** * Selectors as text: reading (selectors/parser.rs) and printing (src/selector.rs) *)
From Coq Require Import List Bool ZArith Ascii String.
Import ListNotations.
From Verif Require AnimModel.
From Verif Require Import AnbModel.
Local Open Scope string_scope.

Definition lower := AnimModel.lower.
(** [match_ignore_ascii_case!] with one and with several words *)
Definition is_kw := AnimModel.is_kw.
Definition keyword {A} := @AnimModel.keyword A.
(** values/ident.rs:31-44: the words a [CustomIdent] may not be *)
Definition reserved := AnimModel.reserved.

(** ** Tokens: component values.  Simplifications: the tokens of An+B are one token with their text (read by
    [read_anb]); [=] is one of the attribute operators; every token that no selector may hold is [Junk]. *)
Inductive delim := Star | Bar | Dot | Amp | Gt | Plus | Tilde | Slash | OtherDelim.
Inductive attr_op := Equal | Includes | DashMatch | Prefix | Substring | Suffix.
Inductive tok :=
| Ws | Ident (s : string) | Hash (s : string) | Delim (d : delim) | Colon | Comma | Str (s : string) | Op (o : attr_op) | Nth (text : string)
| Fun (name : string) (args : list tok) | Square (args : list tok) | Junk (n : nat).

(** ** Selectors *)
(** vendor_prefix.rs *)
Inductive vp := NoPrefix | WebKit | Moz | Ms | Opera.
Definition prefix_name (p : vp) : string := match p with NoPrefix => "" | WebKit => "-webkit-" | Moz => "-moz-" | Ms => "-ms-" | Opera => "-o-" end.
(** src/selector.rs:595-612 *)
Inductive scrollbar_class := Horizontal | Vertical | Decrement | Increment | StartPiece | EndPiece | DoubleButton | SingleButton | NoButton | CornerPresent | WindowInactive.
(** src/selector.rs:403-592.  [Local] and [Global] need CSS modules and are left out. *)
Inductive pclass :=
| Hover | Active | Focus | FocusVisible | FocusWithin | Current | Past | Future | Playing | Paused | Seeking
| Buffering | Stalled | Muted | VolumeLocked | Open | Closed | Modal | PictureInPicture | PopoverOpen | Defined
| Link | LocalLink | Target | TargetWithin | Visited | Enabled | Disabled | Default | Checked | Indeterminate | Blank
| Valid | Invalid | InRange | OutOfRange | Required | Optional | UserValid | UserInvalid | ActiveViewTransition
| Fullscreen (p : vp) | AnyLink (p : vp) | ReadOnly (p : vp) | ReadWrite (p : vp) | PlaceholderShown (p : vp) | Autofill (p : vp)
| ScrollbarClass (s : scrollbar_class)
| Lang (languages : list string) | Dir (rtl : bool) | State (s : string) | TransitionType (kind : list string)
| CustomClass (name : string) | CustomClassFn (name : string) (args : list tok).
(** src/selector.rs:104-197, without the last case *)
Definition class_table : list (string * pclass) := [
  ("hover", Hover); ("active", Active); ("focus", Focus); ("focus-visible", FocusVisible);
  ("focus-within", FocusWithin); ("current", Current); ("past", Past); ("future", Future); ("playing", Playing);
  ("paused", Paused); ("seeking", Seeking); ("buffering", Buffering); ("stalled", Stalled); ("muted", Muted);
  ("volume-locked", VolumeLocked); ("open", Open); ("closed", Closed); ("modal", Modal);
  ("picture-in-picture", PictureInPicture); ("popover-open", PopoverOpen); ("defined", Defined); ("link", Link);
  ("local-link", LocalLink); ("target", Target); ("target-within", TargetWithin); ("visited", Visited);
  ("enabled", Enabled); ("disabled", Disabled); ("default", Default); ("checked", Checked);
  ("indeterminate", Indeterminate); ("blank", Blank); ("valid", Valid); ("invalid", Invalid); ("in-range", InRange);
  ("out-of-range", OutOfRange); ("required", Required); ("optional", Optional); ("user-valid", UserValid);
  ("user-invalid", UserInvalid); ("active-view-transition", ActiveViewTransition);
  ("fullscreen", Fullscreen NoPrefix); ("-webkit-full-screen", Fullscreen WebKit); ("-moz-full-screen", Fullscreen Moz); ("-ms-fullscreen", Fullscreen Ms);
  ("any-link", AnyLink NoPrefix); ("-webkit-any-link", AnyLink WebKit); ("-moz-any-link", AnyLink Moz);
  ("read-only", ReadOnly NoPrefix); ("-moz-read-only", ReadOnly Moz); ("read-write", ReadWrite NoPrefix); ("-moz-read-write", ReadWrite Moz);
  ("placeholder-shown", PlaceholderShown NoPrefix); ("-moz-placeholder", PlaceholderShown Moz); ("-ms-input-placeholder", PlaceholderShown Ms);
  ("autofill", Autofill NoPrefix); ("-webkit-autofill", Autofill WebKit); ("-o-autofill", Autofill Opera);
  ("horizontal", ScrollbarClass Horizontal); ("vertical", ScrollbarClass Vertical);
  ("decrement", ScrollbarClass Decrement); ("increment", ScrollbarClass Increment);
  ("start", ScrollbarClass StartPiece); ("end", ScrollbarClass EndPiece);
  ("double-button", ScrollbarClass DoubleButton); ("single-button", ScrollbarClass SingleButton);
  ("no-button", ScrollbarClass NoButton); ("corner-present", ScrollbarClass CornerPresent);
  ("window-inactive", ScrollbarClass WindowInactive)
].
(** src/selector.rs:728-846 *)
Definition scrollbar_name (s : scrollbar_class) : string :=
  match s with
  | Horizontal => "horizontal" | Vertical => "vertical" | Decrement => "decrement" | Increment => "increment"
  | StartPiece => "start" | EndPiece => "end" | DoubleButton => "double-button" | SingleButton => "single-button"
  | NoButton => "no-button" | CornerPresent => "corner-present" | WindowInactive => "window-inactive"
  end.
Definition class_name (c : pclass) : string :=
  match c with
  | Hover => "hover" | Active => "active" | Focus => "focus" | FocusVisible => "focus-visible"
  | FocusWithin => "focus-within" | Current => "current" | Past => "past" | Future => "future" | Playing => "playing"
  | Paused => "paused" | Seeking => "seeking" | Buffering => "buffering" | Stalled => "stalled" | Muted => "muted"
  | VolumeLocked => "volume-locked" | Open => "open" | Closed => "closed" | Modal => "modal"
  | PictureInPicture => "picture-in-picture" | PopoverOpen => "popover-open" | Defined => "defined" | Link => "link"
  | LocalLink => "local-link" | Target => "target" | TargetWithin => "target-within" | Visited => "visited"
  | Enabled => "enabled" | Disabled => "disabled" | Default => "default" | Checked => "checked"
  | Indeterminate => "indeterminate" | Blank => "blank" | Valid => "valid" | Invalid => "invalid"
  | InRange => "in-range" | OutOfRange => "out-of-range" | Required => "required" | Optional => "optional"
  | UserValid => "user-valid" | UserInvalid => "user-invalid" | ActiveViewTransition => "active-view-transition"
  | Fullscreen p => prefix_name p ++ (match p with WebKit | Moz => "full-screen" | _ => "fullscreen" end)
  | AnyLink p => prefix_name p ++ "any-link" | ReadOnly p => prefix_name p ++ "read-only" | ReadWrite p => prefix_name p ++ "read-write"
  | PlaceholderShown p => prefix_name p ++ "placeholder-shown" | Autofill p => prefix_name p ++ "autofill"
  | ScrollbarClass s => scrollbar_name s
  | CustomClass n => n
  | Lang _ => "lang" | Dir _ => "dir" | State _ => "state" | TransitionType _ => "active-view-transition-type" | CustomClassFn n _ => n
  end.

(** src/selector.rs:1011-1028 *)
Inductive scrollbar_element := Scrollbar | Button | Track | TrackPiece | Thumb | Corner | Resizer.
(** src/selector.rs:1034-1085 *)
Inductive part_name := AllParts | PartName (s : string).
Record vt_part := VtPart { vt_name : option part_name; vt_classes : list string }.
Inductive vt_kind := VtGroup | VtImagePair | VtOld | VtNew.
(** src/selector.rs:906-1008.  The two [cue] functions hold a selector and are components. *)
Inductive pelement :=
| After | Before | FirstLine | FirstLetter | DetailsContent | TargetText | Selection (p : vp) | Placeholder (p : vp) | Marker | Backdrop (p : vp)
| FileSelectorButton (p : vp) | ScrollbarElement (s : scrollbar_element) | Cue | CueRegion | ViewTransition | VtFn (k : vt_kind) (part : vt_part)
| Picker (s : string) | PickerIcon | Checkmark | GrammarError | SpellingError
| CustomElement (name : string) | CustomElementFn (name : string) (args : list tok).
(** src/selector.rs:263-306, without the last case *)
Definition element_table : list (string * pelement) := [
  ("before", Before); ("after", After); ("first-line", FirstLine); ("first-letter", FirstLetter); ("details-content", DetailsContent); ("target-text", TargetText);
  ("cue", Cue); ("cue-region", CueRegion); ("selection", Selection NoPrefix); ("-moz-selection", Selection Moz); ("placeholder", Placeholder NoPrefix);
  ("-webkit-input-placeholder", Placeholder WebKit); ("-moz-placeholder", Placeholder Moz); ("-ms-input-placeholder", Placeholder Moz); ("marker", Marker);
  ("backdrop", Backdrop NoPrefix); ("-webkit-backdrop", Backdrop WebKit); ("file-selector-button", FileSelectorButton NoPrefix);
  ("-webkit-file-upload-button", FileSelectorButton WebKit); ("-ms-browse", FileSelectorButton Ms);
  ("-webkit-scrollbar", ScrollbarElement Scrollbar); ("-webkit-scrollbar-button", ScrollbarElement Button); ("-webkit-scrollbar-track", ScrollbarElement Track);
  ("-webkit-scrollbar-track-piece", ScrollbarElement TrackPiece); ("-webkit-scrollbar-thumb", ScrollbarElement Thumb);
  ("-webkit-scrollbar-corner", ScrollbarElement Corner); ("-webkit-resizer", ScrollbarElement Resizer);
  ("picker-icon", PickerIcon); ("checkmark", Checkmark); ("view-transition", ViewTransition); ("grammar-error", GrammarError); ("spelling-error", SpellingError)
].
(** src/selector.rs:1179-1272: whether it is written with one colon, and the name *)
Definition one_colon (e : pelement) : bool := match e with After | Before | FirstLine | FirstLetter => true | _ => false end.
Definition vt_fn_name (k : vt_kind) : string :=
  match k with VtGroup => "view-transition-group" | VtImagePair => "view-transition-image-pair" | VtOld => "view-transition-old" | VtNew => "view-transition-new" end.
Definition element_name (e : pelement) : string :=
  match e with
  | After => "after" | Before => "before" | FirstLine => "first-line" | FirstLetter => "first-letter" | DetailsContent => "details-content"
  | TargetText => "target-text" | Marker => "marker" | Selection p => prefix_name p ++ "selection" | Cue => "cue" | CueRegion => "cue-region"
  | Placeholder p => prefix_name p ++ (match p with WebKit | Ms => "input-placeholder" | _ => "placeholder" end)
  | Backdrop p => prefix_name p ++ "backdrop"
  | FileSelectorButton p => prefix_name p ++ (match p with WebKit => "file-upload-button" | Ms => "browse" | _ => "file-selector-button" end)
  | ScrollbarElement s =>
      match s with
      | Scrollbar => "-webkit-scrollbar" | Button => "-webkit-scrollbar-button" | Track => "-webkit-scrollbar-track" | TrackPiece => "-webkit-scrollbar-track-piece"
      | Thumb => "-webkit-scrollbar-thumb" | Corner => "-webkit-scrollbar-corner" | Resizer => "-webkit-resizer"
      end
  | ViewTransition => "view-transition" | VtFn k _ => vt_fn_name k | Picker _ => "picker" | PickerIcon => "picker-icon" | Checkmark => "checkmark"
  | GrammarError => "grammar-error" | SpellingError => "spelling-error" | CustomElement n => n | CustomElementFn n _ => n
  end.

Local Open Scope list_scope.

(** selectors/parser.rs:1176-1203 *)
Inductive combinator := Child | Descendant | NextSibling | LaterSibling | PseudoElement | SlotAssignment | PartComb | DeepDescendant | Deep.
(** selectors/parser.rs:1215-1225 *)
Inductive nth_type := NthChild | NthLastChild | OnlyChild | NthOfType | NthLastOfType | OnlyOfType | NthCol | NthLastCol.
(** selectors/attr.rs: the four case sensitivities *)
Inductive case_flag := ExplicitSensitive | Insensitive | DependsOnName.
Inductive attr_ns := AttrAny | AttrNs (p : string).
(** selectors/parser.rs:1400-1530.  Components are kept in the order of the text; the code keeps the compounds from right to left
    (SelectorModel.v).  Simplifications: what follows from the other fields is left out: lower case names,
    [never_matches], the specificity, and [is_function] of [:nth-child()], which is not printed.  [CaseSensitive] and [AsciiCaseInsensitiveIfInHtml...] are [DependsOnName] with the table's answer. *)
Inductive comp :=
| Comb (k : combinator)
| AnyNs | NoNs | Ns (p : string)
| Univ | Local (s : string)
| Id (s : string) | Class (s : string)
| AttrExists (name : string)
| AttrValue (name : string) (o : attr_op) (v : string) (f : case_flag) (html : bool)
| AttrOther (ns : option attr_ns) (name : string) (v : option (attr_op * string * case_flag * bool))
| Not (l : list (list comp)) | Is (l : list (list comp)) | Where (l : list (list comp)) | Any (p : vp) (l : list (list comp)) | Has (l : list (list comp))
| Root | Empty | Scope | NthComp (t : nth_type) (a b : Z) | NthOf (t : nth_type) (a b : Z) (l : list (list comp))
| Host (s : option (list comp))
| Slotted (s : list comp) | Part (names : list string)
| PClass (c : pclass) | PElement (e : pelement) | CueFn (region : bool) (s : list comp)
| Nesting.
Definition sel := list comp.

(** Options and what the model takes as given: the table of HTML attributes, the lengths of a value written as
    an identifier and as a string, and what the tokenizer makes of a name that is written without escapes *)
Record config := Config {
  nesting_allowed : bool; deep : bool; minify : bool;
  html_insensitive : string -> bool; ident_len : string -> nat; string_len : string -> nat; raw : string -> list tok
}.

(** ** The state of the parser, selectors/parser.rs:94-186.  [SKIP_DEFAULT_NAMESPACE] has no effect without a default
    namespace and [AFTER_NON_STATEFUL_PSEUDO_ELEMENT] is never set (src/selector.rs:1281-1284). *)
Record state := St {
  after_slotted : bool; after_part : bool; after_element : bool; no_combinators : bool; no_pseudos : bool;
  after_nesting : bool; after_scrollbar : bool; after_transition : bool; after_unknown : bool
}.
Definition empty_state : state := St false false false false false false false false false.
Definition set_slotted (s : state) := St true s.(after_part) s.(after_element) s.(no_combinators) s.(no_pseudos) s.(after_nesting) s.(after_scrollbar) s.(after_transition) s.(after_unknown).
Definition set_part (s : state) := St s.(after_slotted) true s.(after_element) s.(no_combinators) s.(no_pseudos) s.(after_nesting) s.(after_scrollbar) s.(after_transition) s.(after_unknown).
Definition set_element (scrollbar transition : bool) (s : state) :=
  St s.(after_slotted) s.(after_part) true s.(no_combinators) s.(no_pseudos) s.(after_nesting) (s.(after_scrollbar) || scrollbar) (s.(after_transition) || transition) s.(after_unknown).
Definition set_unknown (s : state) := St s.(after_slotted) s.(after_part) s.(after_element) s.(no_combinators) s.(no_pseudos) s.(after_nesting) s.(after_scrollbar) s.(after_transition) true.
Definition set_nesting (b : bool) (s : state) := St s.(after_slotted) s.(after_part) s.(after_element) s.(no_combinators) s.(no_pseudos) (s.(after_nesting) || b) s.(after_scrollbar) s.(after_transition) s.(after_unknown).
Definition disallow_pseudos (s : state) := St s.(after_slotted) s.(after_part) s.(after_element) s.(no_combinators) true s.(after_nesting) s.(after_scrollbar) s.(after_transition) s.(after_unknown).
Definition disallow_both (s : state) := St s.(after_slotted) s.(after_part) s.(after_element) true true s.(after_nesting) s.(after_scrollbar) s.(after_transition) s.(after_unknown).
Definition after_pseudo (s : state) : bool := s.(after_part) || s.(after_slotted) || s.(after_element).
Definition allows_pseudos (s : state) : bool := negb (s.(after_element) || s.(no_pseudos)).
Definition allows_slotted (s : state) : bool := negb (after_pseudo s || s.(no_pseudos)).
Definition allows_tree (s : state) : bool := negb (after_pseudo s).

(** ** Reading *)
(** A token with what it is read as when it is a function: the flag tells a pseudo element from a pseudo class *)
Inductive simple := SClass (c : comp) | SPart (names : list string) | SSlotted (s : sel) | SElement (c : comp).
Definition item : Type := tok * (bool -> state -> state * option simple).

Fixpoint skip (l : list item) : list item := match l with (Ws, _) :: r => skip r | _ => l end.

(** selectors/parser.rs:2393-2471 *)
Inductive prefix := Implicit | NoNamespace | AnyNamespace | Namespace (p : string).
Inductive qname := QErr | QEnd | QNone | QSome (p : prefix) (name : option string) (rest : list item).
Definition explicit_namespace (in_attr : bool) (p : prefix) (l : list item) : qname :=
  match l with
  | (Delim Star, _) :: r => if in_attr then QErr else QSome p None r
  | (Ident s, _) :: r => QSome p (Some s) r
  | [] => QEnd
  | _ => QErr
  end.
Definition qualified_name (in_attr : bool) (l : list item) : qname :=
  match l with
  | (Ident v, _) :: (Delim Bar, _) :: r => explicit_namespace in_attr (Namespace v) r
  | (Ident v, _) :: r => QSome Implicit (Some v) r
  | (Delim Star, _) :: (Delim Bar, _) :: r => explicit_namespace in_attr AnyNamespace r
  | (Delim Star, _) :: r => if in_attr then QErr else QSome Implicit None r
  | (Delim Bar, _) :: r => explicit_namespace in_attr NoNamespace r
  | [] => QEnd
  | _ => QNone
  end.
(** selectors/parser.rs:2308-2361: [None] is an error; the components are those of the type selector.
    The end of the input is no error, even after a namespace. *)
Definition type_comps (p : prefix) (name : option string) : list comp :=
  match p with Implicit => [] | NoNamespace => [NoNs] | AnyNamespace => [AnyNs] | Namespace n => [Ns n] end ++ [match name with Some s => Local s | None => Univ end].
Definition type_selector (st : state) (l : list item) : option (list comp * list item) :=
  match qualified_name false l with
  | QErr => None
  | QEnd => Some ([], [])
  | QNone => Some ([], l)
  | QSome p name r => if after_pseudo st then None else Some (type_comps p name, r)
  end.

(** selectors/parser.rs:2611-2635 *)
Definition attribute_flags (l : list item) : option case_flag :=
  match skip l with
  | [] => Some DependsOnName
  | (Ident s, _) :: r =>
      match skip r with
      | [] => if is_kw "i" s then Some Insensitive else if is_kw "s" s then Some ExplicitSensitive else None
      | _ => None
      end
  | _ => None
  end.
Definition has_upper (s : string) : bool := negb (String.eqb (lower s) s).
(** selectors/parser.rs:2587-2607 *)
Definition case_of (cfg : config) (f : case_flag) (name : string) (has_ns : bool) : bool :=
  match f with DependsOnName => negb has_ns && cfg.(html_insensitive) (lower name) | _ => false end.
(** selectors/parser.rs:2473-2583, with the end of the block *)
Definition attribute (cfg : config) (l : list item) : option comp :=
  match qualified_name true (skip l) with
  | QSome p (Some name) r =>
      let ns := match p with Namespace n => Some (AttrNs n) | AnyNamespace => Some AttrAny | _ => None end in
      match skip r with
      | [] => Some (match ns with Some _ => AttrOther ns name None | None => AttrExists name end)
      | (Op o, _) :: r1 =>
          match skip r1 with
          | (Ident v, _) :: r2 | (Str v, _) :: r2 =>
              match attribute_flags r2 with
              | Some f =>
                  let has_ns := match ns with Some _ => true | None => false end in
                  let html := case_of cfg f name has_ns in
                  Some (if has_ns || has_upper name then AttrOther ns name (Some (o, v, f, html)) else AttrValue name o v f html)
              | None => None
              end
          | _ => None
          end
      | _ => None
      end
  | _ => None
  end.

(** src/selector.rs:619-647, 1286-1318 *)
Definition is_user_action (c : pclass) : bool := match c with Active | Hover | Focus | FocusWithin | FocusVisible => true | _ => false end.
Definition valid_before_scrollbar (c : pclass) : bool := match c with ScrollbarClass _ => false | _ => true end.
Definition valid_after_scrollbar (c : pclass) : bool := match c with ScrollbarClass _ | Enabled | Disabled | Hover | Active => true | _ => false end.
Definition valid_after_slotted (c : comp) : bool := match c with PElement (Before | After | Marker | Placeholder _ | FileSelectorButton _) => true | _ => false end.
Definition is_scrollbar (c : comp) : bool := match c with PElement (ScrollbarElement _) => true | _ => false end.
Definition is_transition (c : comp) : bool := match c with PElement (VtFn _ _) => true | _ => false end.
Definition is_unknown (c : comp) : bool := match c with PElement (CustomElement _) | PElement (CustomElementFn _ _) => true | _ => false end.

(** selectors/parser.rs:2938-2944 *)
Definition css2_element (name : string) : bool := is_kw "before" name || is_kw "after" name || is_kw "first-line" name || is_kw "first-letter" name.
(** selectors/parser.rs:3091-3102 *)
Definition tree_table : list (string * comp) := [
  ("first-child", NthComp NthChild 0 1); ("last-child", NthComp NthLastChild 0 1); ("only-child", NthComp OnlyChild 0 1); ("root", Root); ("empty", Empty);
  ("scope", Scope); ("host", Host None); ("first-of-type", NthComp NthOfType 0 1); ("last-of-type", NthComp NthLastOfType 0 1); ("only-of-type", NthComp OnlyOfType 0 1)
].
(** selectors/parser.rs:3075-3130 and src/selector.rs:97-208 *)
Definition simple_class (st : state) (name : string) : option comp :=
  if st.(after_slotted) then None
  else match (if allows_tree st then keyword tree_table name else None) with
       | Some c => Some c
       | None =>
           if st.(after_transition) && is_kw "only-child" name then Some (NthComp OnlyChild 0 1)
           else
             let c := match keyword class_table name with Some c => c | None => CustomClass name end in
             if st.(after_scrollbar) then if valid_after_scrollbar c then Some (PClass c) else None
             else if st.(after_element) then if is_user_action c then Some (PClass c) else None
             else if valid_before_scrollbar c then Some (PClass c) else None
       end.
(** src/selector.rs:257-318 and selectors/parser.rs:3040-3043 *)
Definition simple_element (st : state) (name : string) : option comp :=
  if negb (allows_pseudos st) then None
  else
    let c := PElement (match keyword element_table name with Some e => e | None => CustomElement name end) in
    if st.(after_slotted) && negb (valid_after_slotted c) then None else Some c.

(** selectors/parser.rs:2708-2741: what is pushed for a simple selector, and the new state *)
Definition push_simple (st : state) (s : simple) : list comp * state :=
  match s with
  | SClass c => ([c], st)
  | SPart n => ([Comb PartComb; Part n], set_part st)
  | SSlotted x => ([Comb SlotAssignment; Slotted x], set_slotted st)
  | SElement c => if is_unknown c then ([c], set_unknown st) else ([Comb PseudoElement; c], set_element (is_scrollbar c) (is_transition c) st)
  end.
Definition prepend (cs : list comp) (r : state * option (list comp * list item)) : state * option (list comp * list item) :=
  let '(st, o) := r in (st, match o with Some (x, l) => Some (cs ++ x, l) | None => None end).
(** selectors/parser.rs:2672-2743 and 2951-3073: the simple selectors of a compound *)
Fixpoint simples (cfg : config) (st : state) (l : list item) {struct l} : state * option (list comp * list item) :=
  let apply st' (o : option simple) r := match o with Some s => let '(cs, st2) := push_simple st' s in prepend cs (simples cfg st2 r) | None => (st', None) end in
  match l with
  | (Hash s, _) :: r => if after_pseudo st then (st, None) else prepend [Id s] (simples cfg st r)
  | (Delim Dot, _) :: r =>
      if after_pseudo st then (st, None)
      else match r with (Ident s, _) :: r' => prepend [Class s] (simples cfg st r') | _ => (st, None) end
  | (Square a, _) :: r =>
      if after_pseudo st then (st, None)
      else match attribute cfg (map (fun t => (t, fun _ s => (s, None))) a) with Some c => prepend [c] (simples cfg st r) | None => (st, None) end
  | (Colon, _) :: (Colon, _) :: (Ident name, _) :: r => apply st (match simple_element st name with Some c => Some (SElement c) | None => None end) r
  | (Colon, _) :: (Colon, _) :: (Fun _ _, f) :: r => let '(st', o) := f true st in apply st' o r
  | (Colon, _) :: (Ident name, _) :: r =>
      if css2_element name then apply st (match simple_element st name with Some c => Some (SElement c) | None => None end) r
      else apply st (match simple_class st name with Some c => Some (SClass c) | None => None end) r
  | (Colon, _) :: (Fun name _, f) :: r => let '(st', o) := f (css2_element name) st in apply st' o r
  | (Colon, _) :: _ => (st, None)
  | (Delim Amp, _) :: r => if cfg.(nesting_allowed) then prepend [Nesting] (simples cfg (set_nesting true st) r) else (st, Some ([], l))
  | _ => (st, Some ([], l))
  end.
(** selectors/parser.rs:2660-2748: a compound is empty when no component is pushed *)
Definition compound (cfg : config) (st : state) (l : list item) : state * option (list comp * list item) :=
  let l := skip l in
  let '(n, st, l) := match l with
                     | (Delim Amp, _) :: r => if cfg.(nesting_allowed) then ([Nesting], set_nesting true st, r) else ([], st, l)
                     | _ => ([], st, l)
                     end in
  match type_selector st l with
  | None => (st, None)
  | Some (t, r) => prepend (n ++ t) (simples cfg st r)
  end.

(** selectors/parser.rs:2154-2209 *)
Inductive comb_result := CEnd | CStop (rest : list item) | CSome (k : combinator) (rest : list item).
Fixpoint read_combinator (cfg : config) (ws : bool) (l : list item) : comb_result :=
  match l with
  | [] => CEnd
  | (Ws, _) :: r => read_combinator cfg true r
  | (Delim Gt, _) :: r =>
      if cfg.(deep) then
        match skip r with
        | (Delim Gt, _) :: r1 => match skip r1 with (Delim Gt, _) :: r2 => CSome DeepDescendant r2 | _ => CSome Child r end
        | _ => CSome Child r
        end
      else CSome Child r
  | (Delim Plus, _) :: r => CSome NextSibling r
  | (Delim Tilde, _) :: r => CSome LaterSibling r
  | (Delim Slash, _) :: r =>
      if cfg.(deep) then
        match skip r with
        | (Ident s, _) :: r1 => if is_kw "deep" s then match skip r1 with (Delim Slash, _) :: r2 => CSome Deep r2 | _ => CStop r end else CStop r
        | _ => CStop r
        end
      else if ws then CSome Descendant l else CStop l
  | _ => if ws then CSome Descendant l else CStop l
  end.
(** selectors/parser.rs:2134-2216.  The fuel bounds the number of compounds. *)
Fixpoint selector_loop (cfg : config) (fuel : nat) (st : state) (l : list item) : state * option (list comp * list item) :=
  match fuel with
  | O => (st, None)
  | S f =>
      match compound cfg st l with
      | (st, None) => (st, None)
      | (st, Some ([], _)) => (st, None)
      | (st, Some (cs, r)) =>
          if after_pseudo st then match skip r with [] => (st, Some (cs, [])) | _ => (st, None) end
          else match read_combinator cfg false r with
               | CEnd => (st, Some (cs, []))
               | CStop r' => (st, Some (cs, r'))
               | CSome k r' => if st.(no_combinators) then (st, None) else prepend (cs ++ [Comb k]) (selector_loop cfg f st r')
               end
      end
  end.
(** selectors/parser.rs:2114-2238 with the end of the delimited input.  [implicit] is [NestingRequirement::Implicit]; the other case is [None]. *)
Definition selector (cfg : config) (implicit : bool) (st : state) (l : list item) : state * option sel :=
  match selector_loop cfg (S (List.length l)) st l with
  | (st, Some (cs, r)) =>
      match skip r with
      | [] => (st, Some (if implicit && negb st.(after_nesting) then Nesting :: Comb Descendant :: cs else cs))
      | _ => (st, None)
      end
  | (st, None) => (st, None)
  end.
(** selectors/parser.rs:2257-2302 *)
Definition relative_selector (cfg : config) (implicit : bool) (st : state) (l : list item) : state * option sel :=
  let scope := if implicit then Nesting else Scope in
  let go k r := match selector cfg false st r with (st, Some s) => (st, Some (scope :: Comb k :: s)) | x => x end in
  match skip l with
  | [] => (st, None)
  | (Delim Gt, _) :: r => go Child r
  | (Delim Plus, _) :: r => go NextSibling r
  | (Delim Tilde, _) :: r => go LaterSibling r
  | _ => selector cfg implicit st l
  end.

(** [parse_until_before] commas *)
Fixpoint split_commas (l : list item) : list (list item) :=
  match l with
  | [] => [[]]
  | (Comma, _) :: r => [] :: split_commas r
  | x :: r => match split_commas r with s :: rest => (x :: s) :: rest | [] => [[x]] end
  end.
(** selectors/parser.rs:440-481 and 500-541 *)
Fixpoint selectors (one : state -> list item -> state * option sel) (forgiving : bool) (original st : state) (parts : list (list item)) : state * option (list sel) :=
  match parts with
  | [] => (st, Some [])
  | p :: r =>
      let '(s1, o) := one original p in
      let st := set_nesting s1.(after_nesting) st in
      match o with
      | Some x => match selectors one forgiving original st r with (st, Some xs) => (st, Some (x :: xs)) | y => y end
      | None => if forgiving then selectors one forgiving original st r else (st, None)
      end
  end.
Definition selector_list (cfg : config) (relative implicit forgiving : bool) (st : state) (l : list item) : state * option (list sel) :=
  selectors (if relative then relative_selector cfg implicit else selector cfg implicit) forgiving st st (split_commas l).

(** selectors/parser.rs:569-585 *)
Definition inner_compound (cfg : config) (st : state) (l : list item) : state * option sel :=
  match selector cfg false (disallow_both st) l with
  | (st', Some s) => (set_nesting st'.(after_nesting) st, Some s)
  | (_, None) => (st, None)
  end.
(** selectors/parser.rs:2637-2658, 2750-2778 and 2780-2802 *)
Definition nested_list (cfg : config) (relative forgiving : bool) (child st : state) (l : list item) : state * option (list sel) :=
  match selector_list cfg relative false forgiving child l with
  | (st', Some x) => (set_nesting st'.(after_nesting) st, Some x)
  | (_, None) => (st, None)
  end.
(** selectors/parser.rs:2804-2842: the words that are looked at first *)
Definition nth_table : list (string * nth_type) := [
  ("nth-child", NthChild); ("nth-of-type", NthOfType); ("nth-last-child", NthLastChild); ("nth-last-of-type", NthLastOfType); ("nth-col", NthCol); ("nth-last-col", NthLastCol)].
Definition allows_of (t : nth_type) : bool := match t with NthChild | NthLastChild => true | _ => false end.
(** selectors/parser.rs:2844-2894 with the end of the block *)
Definition nth_class (cfg : config) (st : state) (t : nth_type) (l : list item) : option comp :=
  if negb (allows_tree st) then None
  else match skip l with
       | (Nth s, _) :: r =>
           match read_anb s with
           | Some (a, b) =>
               match skip r with
               | [] => Some (NthComp t a b)
               | (Ident o, _) :: r' =>
                   if allows_of t && is_kw "of" o then
                     match selector_list cfg false false true (disallow_pseudos st) r' with (_, Some x) => Some (NthOf t a b x) | _ => None end
                   else None
               | _ => None
               end
           | None => None
           end
       | _ => None
       end.
(** [expect_ident_or_string] and [CustomIdent::parse], one per comma *)
Fixpoint each {A} (f : list item -> option A) (parts : list (list item)) : option (list A) :=
  match parts with
  | [] => Some []
  | p :: r => match f p, each f r with Some x, Some xs => Some (x :: xs) | _, _ => None end
  end.
Definition one_token {A} (f : tok -> option A) (l : list item) : option A :=
  match skip l with (t, _) :: r => match skip r with [] => f t | _ => None end | [] => None end.
Definition ident_or_string (t : tok) : option string := match t with Ident s | Str s => Some s | _ => None end.
Definition custom_ident (t : tok) : option string := match t with Ident s => if reserved s then None else Some s | _ => None end.
(** src/selector.rs:210-246.  Simplification: the arguments of an unknown function are kept as they are. *)
Definition functional_class (name : string) (args : list tok) (l : list item) : option pclass :=
  if is_kw "lang" name then option_map Lang (each (one_token ident_or_string) (split_commas l))
  else if is_kw "dir" name then one_token (fun t => match t with Ident s => if is_kw "ltr" s then Some (Dir false) else if is_kw "rtl" s then Some (Dir true) else None | _ => None end) l
  else if is_kw "active-view-transition-type" name then option_map TransitionType (each (one_token custom_ident) (split_commas l))
  else if is_kw "state" name then one_token (fun t => option_map State (custom_ident t)) l
  else Some (CustomClassFn name args).
Definition with_state {A} (r : state * option A) (f : A -> simple) : state * option simple :=
  let '(st, o) := r in (st, match o with Some x => Some (f x) | None => None end).
(** selectors/parser.rs:2804-2842 *)
Definition function_class (cfg : config) (name : string) (args : list tok) (l : list item) (st : state) : state * option simple :=
  match keyword nth_table name with
  | Some t => (st, match nth_class cfg st t l with Some c => Some (SClass c) | None => None end)
  | None =>
      if is_kw "is" name then with_state (nested_list cfg false true (disallow_pseudos st) st l) (fun x => SClass (Is x))
      else if is_kw "where" name then with_state (nested_list cfg false true (disallow_pseudos st) st l) (fun x => SClass (Where x))
      else if is_kw "has" name then with_state (nested_list cfg true true st st l) (fun x => SClass (Has x))
      else if is_kw "host" name then
        if allows_tree st then with_state (inner_compound cfg st l) (fun x => SClass (Host (Some x))) else (st, None)
      else if is_kw "not" name then with_state (nested_list cfg false false (disallow_pseudos st) st l) (fun x => SClass (Not x))
      else if is_kw "-webkit-any" name then with_state (nested_list cfg false true (disallow_pseudos st) st l) (fun x => SClass (Any WebKit x))
      else if is_kw "-moz-any" name then with_state (nested_list cfg false true (disallow_pseudos st) st l) (fun x => SClass (Any Moz x))
      else if after_pseudo st then (st, None)
      else (st, match functional_class name args l with Some c => Some (SClass (PClass c)) | None => None end)
  end.
(** selectors/parser.rs:3006-3016 *)
Fixpoint part_names (l : list item) : option (list string) :=
  match l with
  | [] => Some []
  | (Ws, _) :: r => part_names r
  | (Ident s, _) :: r => match part_names r with Some x => Some (s :: x) | None => None end
  | _ => None
  end.
(** src/selector.rs:1087-1111: the token that ends the classes is lost *)
Fixpoint vt_class_list (l : list item) : option (list string * list item) :=
  match l with
  | (Delim Dot, _) :: (Ident s, _) :: r => match vt_class_list r with Some (x, y) => Some (s :: x, y) | None => None end
  | (Delim Dot, _) :: _ => None
  | _ :: r => Some ([], r)
  | [] => Some ([], [])
  end.
Definition vt_part_selector (l : list item) : option vt_part :=
  let l := skip l in
  let '(name, l) := match l with
                    | (Delim Star, _) :: r => (Some AllParts, r)
                    | (Ident s, _) :: r => if reserved s then (None, l) else (Some (PartName s), r)
                    | _ => (None, l)
                    end in
  match vt_class_list l with
  | Some (classes, r) =>
      match skip r with
      | [] => match name, classes with None, [] => None | _, _ => Some (VtPart name classes) end
      | _ => None
      end
  | None => None
  end.
(** src/selector.rs:320-345 *)
Definition vt_table : list (string * vt_kind) := [
  ("view-transition-group", VtGroup); ("view-transition-image-pair", VtImagePair); ("view-transition-old", VtOld); ("view-transition-new", VtNew)].
Definition functional_element (cfg : config) (name : string) (args : list tok) (l : list item) : option comp :=
  let cue region := match selector cfg false empty_state l with (_, Some s) => Some (CueFn region s) | _ => None end in
  if is_kw "cue" name then cue false
  else if is_kw "cue-region" name then cue true
  else if is_kw "picker" name then one_token (fun t => match t with Ident s => Some (PElement (Picker s)) | _ => None end) l
  else match keyword vt_table name with
       | Some k => match vt_part_selector l with Some p => Some (PElement (VtFn k p)) | None => None end
       | None => Some (PElement (CustomElementFn name args))
       end.
(** selectors/parser.rs:3000-3045 *)
Definition function_element (cfg : config) (name : string) (args : list tok) (l : list item) (st : state) : state * option simple :=
  if negb (allows_pseudos st) then (st, None)
  else if is_kw "part" name then
    if allows_slotted st then (st, match part_names l with Some (x :: xs) => Some (SPart (x :: xs)) | _ => None end) else (st, None)
  else if is_kw "slotted" name then
    if allows_slotted st then with_state (inner_compound cfg st l) SSlotted else (st, None)
  else match functional_element cfg name args l with
       | Some c => (st, if st.(after_slotted) && negb (valid_after_slotted c) then None else Some (SElement c))
       | None => (st, None)
       end.
(** What a token is read as when it is a function *)
Fixpoint fn (cfg : config) (t : tok) (element : bool) (st : state) {struct t} : state * option simple :=
  match t with
  | Fun name args =>
      let l := map (fun a => (a, fn cfg a)) args in
      if element then function_element cfg name args l st else function_class cfg name args l st
  | _ => (st, None)
  end.
Definition items (cfg : config) (l : list tok) : list item := map (fun t => (t, fn cfg t)) l.
(** selectors/parser.rs:417-439 and 484-498 as called from src/parser.rs:962-978: the list of a style rule, at the top and inside another *)
Definition parse (cfg : config) (l : list tok) : option (list sel) := snd (selector_list cfg false false false empty_state (items cfg l)).
Definition parse_nested (cfg : config) (l : list tok) : option (list sel) := snd (selector_list cfg true true false empty_state (items cfg l)).

(** ** Printing without targets and without CSS modules *)
(** printer.rs: [whitespace] and [delim] *)
Definition space (cfg : config) : list tok := if cfg.(minify) then [] else [Ws].
(** src/selector.rs:1367-1386 *)
Definition print_comb (cfg : config) (k : combinator) : list tok :=
  match k with
  | Child => space cfg ++ [Delim Gt] ++ space cfg
  | Descendant => [Ws]
  | NextSibling => space cfg ++ [Delim Plus] ++ space cfg
  | LaterSibling => space cfg ++ [Delim Tilde] ++ space cfg
  | Deep => [Ws; Delim Slash; Ident "deep"; Delim Slash; Ws]
  | DeepDescendant => space cfg ++ [Delim Gt; Delim Gt; Delim Gt] ++ space cfg
  | PseudoElement | PartComb | SlotAssignment => []
  end.
Definition comma (cfg : config) : list tok := [Comma] ++ space cfg.
Fixpoint sep_by {A} (s : list A) (l : list (list A)) : list A :=
  match l with [] => [] | [x] => x | x :: r => x ++ s ++ sep_by s r end.

(** src/selector.rs:1399-1552.  A component comes with what is written for it.  The compounds and the
    combinators are walked through side by side. *)
Section Layout.
Context {A : Type} (comb : combinator -> list A).
Definition written : Type := comp * list A.
Definition is_comb (c : comp) : bool := match c with Comb _ => true | _ => false end.
Fixpoint split_compounds (l : list written) : list (list written) :=
  match l with
  | [] => [[]]
  | (Comb _, _) :: r => [] :: split_compounds r
  | x :: r => match split_compounds r with s :: rest => (x :: s) :: rest | [] => [[x]] end
  end.
Fixpoint combs_of (l : list written) : list combinator :=
  match l with [] => [] | (Comb k, _) :: r => k :: combs_of r | _ :: r => combs_of r end.
Definition is_namespace (c : comp) : bool := match c with AnyNs | NoNs | Ns _ => true | _ => false end.
Definition is_univ (c : comp) : bool := match c with Univ => true | _ => false end.
Definition all_written (l : list written) : list A := flat_map snd l.
(** src/selector.rs:1446-1452: no default namespace, so it may be left out unless a namespace comes first *)
Definition can_elide (first : bool) (c : list written) : bool :=
  match (if first then match c with (Nesting, _) :: r => r | _ => c end else c) with (x, _) :: _ => negb (is_namespace x) | [] => true end.
(** src/selector.rs:1441-1444, 1453-1467: the compound is a universal selector alone *)
Definition univ_alone (first : bool) (next : option combinator) (c : list written) : bool :=
  let body := if first then match c with (Nesting, _) :: r => r | _ => c end else c in
  let rest := match body with (x, _) :: r => if is_namespace x then r else body | [] => [] end in
  match rest, next with
  | _, Some PseudoElement | _, Some SlotAssignment => false
  | [(Univ, _)], _ => true
  | _, _ => false
  end.
Definition write_compound (first : bool) (next : option combinator) (c : list written) : list A :=
  if univ_alone first next c then all_written c
  else all_written (filter (fun x => negb (is_univ (fst x) && can_elide first c)) c).
Fixpoint layout (relative first : bool) (combs : list combinator) (l : list (list written)) : list A :=
  match l with
  | [] => []
  | c :: r =>
      let '(out, c, combs, relative) :=
        match relative, c with
        | true, (Scope, _) :: c' => (match combs with k :: _ => comb k | [] => [] end, c', tl combs, false)
        | _, _ => ([], c, combs, relative)
        end in
      out ++
      match c with
      | [] => layout relative first combs r
      | _ => write_compound first (hd_error combs) c ++ (match combs with k :: _ => comb k | [] => [] end) ++ layout relative false (tl combs) r
      end
  end.
Definition write_selector (relative : bool) (s : list written) : list A := layout relative true (combs_of s) (split_compounds s).
End Layout.

(** src/selector.rs:1759-1799 *)
Definition is_type (c : comp) : bool := match c with Local _ | Univ => true | _ => false end.
Definition has_type (s : sel) : bool :=
  match s with
  | c :: r => if is_namespace c then match r with t :: _ => is_type t | [] => false end else is_type c
  | [] => false
  end.
Definition is_simple (s : sel) : bool := negb (existsb is_comb s).
(** src/selector.rs:1711-1720 *)
Definition should_unwrap (l : list sel) : bool := match l with [s] => negb (has_type s) && is_simple s | _ => false end.

(** selectors/parser.rs:1299-1315 *)
Definition is_function (a b : Z) : bool := negb (Z.eqb a 0 && Z.eqb b 1).
Definition nth_start (t : nth_type) (function : bool) : string * bool :=
  match t with
  | NthChild => if function then ("nth-child", true) else ("first-child", false)
  | NthLastChild => if function then ("nth-last-child", true) else ("last-child", false)
  | NthOfType => if function then ("nth-of-type", true) else ("first-of-type", false)
  | NthLastOfType => if function then ("nth-last-of-type", true) else ("last-of-type", false)
  | OnlyChild => ("only-child", false)
  | OnlyOfType => ("only-of-type", false)
  | NthCol => ("nth-col", true)
  | NthLastCol => ("nth-last-col", true)
  end.
(** selectors/parser.rs:2018-2025.  [Junk 0] stands for a parenthesis that is not closed, [Junk 1] for one that is not opened. *)
Definition print_nth (t : nth_type) (a b : Z) : list tok :=
  let '(name, opened) := nth_start t (is_function a b) in
  Colon ::
  match opened, is_function a b with
  | true, true => [Fun name [Nth (affine a b)]]
  | true, false => [Ident name; Junk 0]
  | false, true => [Ident name; Nth (affine a b); Junk 1]
  | false, false => [Ident name]
  end.
Definition flag_tokens (f : case_flag) : list tok := match f with DependsOnName => [] | Insensitive => [Ws; Ident "i"] | ExplicitSensitive => [Ws; Ident "s"] end.
(** src/selector.rs:1573-1590 *)
Definition attr_value (cfg : config) (v : string) : list tok :=
  if cfg.(minify) && (Nat.ltb 0 (cfg.(ident_len) v) && Nat.ltb (cfg.(ident_len) v) (cfg.(string_len) v))%bool then [Ident v] else [Str v].
(** selectors/parser.rs:2072-2098 *)
Definition print_attr_other (ns : option attr_ns) (name : string) (v : option (attr_op * string * case_flag * bool)) : list tok :=
  [Square (match ns with Some (AttrNs p) => [Ident p; Delim Bar] | Some AttrAny => [Delim Star; Delim Bar] | None => [] end
           ++ [Ident name] ++ match v with Some (o, x, f, _) => [Op o; Str x] ++ flag_tokens f | None => [] end)].
(** A name without escapes before a parenthesis *)
Definition raw_fun (cfg : config) (name : string) (args : list tok) : list tok :=
  match cfg.(raw) name with [Ident n] => [Fun n args] | x => x ++ [Junk 2] end.
(** src/selector.rs:661-853 *)
Definition ident_tokens (s : string) : list tok := if String.eqb s "" then [] else [Ident s].
Definition print_class (cfg : config) (c : pclass) : list tok :=
  Colon ::
  match c with
  | Lang l => [Fun "lang" (sep_by (comma cfg) (map ident_tokens l))]
  | Dir rtl => [Fun "dir" [Ident (if rtl then "rtl" else "ltr")]]
  | State s => [Fun "state" [Ident s]]
  | TransitionType l => [Fun "active-view-transition-type" (sep_by (comma cfg) (map (fun s => [Ident s]) l))]
  | CustomClass n => cfg.(raw) n
  | CustomClassFn n args => raw_fun cfg n args
  | _ => [Ident (class_name c)]
  end.
(** src/selector.rs:1061-1127 *)
Definition print_vt_part (p : vt_part) : list tok :=
  match p.(vt_name) with Some AllParts => [Delim Star] | Some (PartName s) => [Ident s] | None => [] end ++ flat_map (fun s => [Delim Dot; Ident s]) p.(vt_classes).
(** src/selector.rs:1148-1275 *)
Definition print_element (cfg : config) (e : pelement) : list tok :=
  (if one_colon e then [Colon] else [Colon; Colon]) ++
  match e with
  | VtFn k p => [Fun (vt_fn_name k) (print_vt_part p)]
  | Picker s => [Fun "picker" [Ident s]]
  | CustomElement n => cfg.(raw) n
  | CustomElementFn n args => raw_fun cfg n args
  | _ => [Ident (element_name e)]
  end.
(** The separated names of [::part()], selectors/parser.rs:1952-1961 *)
Definition print_parts (names : list string) : list tok := sep_by [Ws] (map (fun s => [Ident s]) names).
Definition any_name (p : vp) : string := match p with WebKit | Moz => (prefix_name p ++ "any")%string | _ => "is" end.
(** src/selector.rs:1554-1708 and selectors/parser.rs:1935-2066 *)
Fixpoint print_comp (cfg : config) (c : comp) {struct c} : list tok :=
  let one relative s := write_selector (print_comb cfg) relative (map (fun x => (x, print_comp cfg x)) s) in
  let group relative l := sep_by (comma cfg) (map (one relative) l) in
  match c with
  | Comb k => print_comb cfg k
  | AnyNs => [Delim Star; Delim Bar]
  | NoNs => [Delim Bar]
  | Ns p => [Ident p; Delim Bar]
  | Univ => [Delim Star]
  | Local s => [Ident s]
  | Id s => [Hash s]
  | Class s => [Delim Dot; Ident s]
  | AttrExists n => [Square [Ident n]]
  | AttrValue n o v f _ => [Square ([Ident n; Op o] ++ attr_value cfg v ++ flag_tokens f)]
  | AttrOther ns n v => print_attr_other ns n v
  | Not l => [Colon; Fun "not" (group false l)]
  | Is l => if should_unwrap l then match l with s :: _ => one false s | [] => [] end else [Colon; Fun "is" (group false l)]
  | Where l => [Colon; Fun "where" (group false l)]
  | Any p l => [Colon; Fun (any_name p) (group false l)]
  | Has l => [Colon; Fun "has" (group true l)]
  | Root => [Colon; Ident "root"]
  | Empty => [Colon; Ident "empty"]
  | Scope => [Colon; Ident "scope"]
  | NthComp t a b => print_nth t a b
  | NthOf t a b l => [Colon; Fun (fst (nth_start t true)) ([Nth (affine a b); Ws; Ident "of"; Ws] ++ group true l)]
  | Host None => [Colon; Ident "host"]
  | Host (Some s) => [Colon; Fun "host" (one false s)]
  | Slotted s => [Colon; Colon; Fun "slotted" (one false s)]
  | Part names => [Colon; Colon; Fun "part" (print_parts names)]
  | PClass p => print_class cfg p
  | PElement e => print_element cfg e
  | CueFn region s => [Colon; Colon; Fun (if region then "cue-region" else "cue") (one false s)]
  | Nesting => [Delim Amp]
  end.
Definition print_sel (cfg : config) (relative : bool) (s : sel) : list tok := write_selector (print_comb cfg) relative (map (fun x => (x, print_comp cfg x)) s).
(** src/selector.rs:1784-1799, 1324-1331 *)
Definition print (cfg : config) (l : list sel) : list tok := sep_by (comma cfg) (map (print_sel cfg false) l).
