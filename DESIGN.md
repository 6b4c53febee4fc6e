# Design of the lightningcss model

Source: /repo (parcel-bundler/lightningcss, pinned).  Prover: Coq 8.16.1, stdlib only.

## Layout

Each subsystem has up to four files under `rocq/theories/`:

* `<X>Model.v`: Gallina translation of the Rust code, each definition citing file and lines.
* `<X>Spec.v`: the independent specification (CSS semantics, abstract relations).  It does not
  mention helpers of the model other than the data types of the API.
* `<X>Proofs.v`: lemmas.
* `<X>Props.v`: property theorems only, each closed by `exact`, with `Print Assumptions`
  and an `Example` showing that a concrete case meets the hypotheses.

Where the faithful model violates a property, the theorem `..._refuted` gives the witness
(computed by the model) and a `..._partial` theorem proves the largest correct part we found.

## Per-property plan

| id | what is modelled | how it is proved |
|----|------------------|------------------|
| C01 | media query AST, printer to tokens, recursive-descent parser, evaluation | induction on AST; parser run on printed tokens; semantic equality of results |
| C02 | MediaList::and, MediaQuery::and | case analysis on qualifiers/types, evaluation semantics; refuted in general |
| C03 | MediaList::or | evaluation semantics, list induction |
| C04 | always/never_matches | evaluation semantics |
| C05 | comparison lowering | rational arithmetic |
| C06 | process_condition with fuel/visited set | induction on the custom-media graph; refuted in general |
| C07, C08 | SupportsCondition and/or, parse, print, over component value trees | text semantics written from the grammar; induction on trees, loop invariant for the merging of declarations |
| C09-C13 | load_file as a transition system, order, inline | invariants by induction on steps; DFS invariants; confluence |
| C14-C16 | CssRuleList::minify over abstract selectors/declarations | meaning of a sheet as a tree of layers with events; invariant over the fold up to reordering that no element sees; refutations outside of tidy sheets |
| C17, C18 | DeclarationBlock set/get/remove, Property::longhand/set_longhand/from_longhands over the real shorthand tables | a declaration says values of longhands; cascaded value of a block; list induction |
| C19 | DeclarationBlock parse/to_css | list induction over component values |
| C20, C22 | side_handler!, shorthand_handler! state machines | simulation relation between handler state and cascaded values |
| C21 | Rect/Size2D | parametric in component |
| C23-C25 | Pattern, CssModule | string induction, invariants |
| C26, C27 | Printer operations | invariant by induction on the operation list |
| C50 | identifier serialisation and a reader written from CSS Syntax | string induction |
| C28, C29 | SelectorBuilder, specificity | list induction, bit packing arithmetic |
| C30, C31, C32 | matching.rs, nth cache, bloom.rs | refinement to declarative matching; invariants |
| C33, C34 | `serialize_selector`, `serialize_nesting`, nested rules, `is_unused` | what selectors match in any document, read from left to right, against what the printed list matches; induction over the fuel (stack depth) and the compounds; rules as lists of blocks with conditions, elements and specificity |
| C35, C36, C54 | calc.rs, length.rs, percentage.rs, time.rs, angle.rs over exact rationals | value of an expression for any unit sizes; the four mutually recursive additions keep it (induction over fuel, then over expressions); printed tokens are read back by an independent reader; termination by counting the terms of sums, and monotone fuel |
| C55 | the declaration list that all handlers share, `DeclarationHandler`, and twelve handlers together | a handler contract (`part`): it changes only its own declarations and behaves the same whatever others are in the list; a block run projects to each handler running alone (simulation with index translation), so the single-handler theorems lift to blocks and histories |
| C56 | `UnicodeRange::to_css` on code points and characters | the printed digits denote the range in the urange grammar; minimality by counting the digits and wildcards that any text of the same meaning needs |
| C57 | `Position` parser and printer on tokens; lengths are a parameter | the CSS grammar as a relation between tokens and axes; parser sound and complete for it; printed tokens denote the same axes in every area |
| C58 | `Animation` parser (loop over open slots) and printer, easing functions | CSS Animations as a relation that gives each component to a longhand; parser sound and complete for it by induction over the tokens; the printed list is such a reading, segment by segment |
| C59 | Parsers and printers of `Transform`, `TransformList`, `Translate`, `Rotate`, `Scale` and `Angle` on tokens, over the reals | CSS Transforms as a relation from functions to maps of points (Rodrigues' formula for rotations); parser sound and complete for it (also for a whole list, so that nothing is skipped), printed functions related to the same map, and so are the functions that `translate`, `rotate` and `scale` become |
| C60 | `Matrix3d` and `to_matrix`, `decompose` entry by entry, over the reals | matrix laws by ring; matrix of a list by induction; half-angle formulas for rotations; decomposition by orthonormal frames and quaternions |
| C61 | `TransformHandler` with targets | cascade per property and prefix, invariant over the declarations; total effect in any monoid |
| C62 | the tokenizer rules that An+B meets, `parse_nth`, `write_affine` | independent grammar of CSS Syntax 6 on characters; inversion per spelling; printing by induction on digits |
| C63 | the selector parser with its state, the printer with its compounds and combinators, without targets | tokens as trees; a meaning of selectors (documents, specificity) apart from the model; every function token is `good` (what it is read as is printed so that it is read back) by induction on token trees; then compounds, selectors and lists; the selector that is read back is a normal form whose meaning is the same by induction on selectors |
| C64 | the reading half of the model of C63 | a grammar of selector text (ten mutual relations on token trees) apart from the model; completeness of the parser by mutual induction on derivations, with a motive for each relation that says what the parser state is before and after; one meaning per text follows |
| C65 | parse_color_mix, interpolate, hue methods, premultiplication, powerless and missing components, over the reals, with all conversions of C66 | a relational spec (which values are taken, angles up to whole turns, weighted means multiplied out) and case analysis by space; nested light-dark() by induction on depth; grammar of the text, sound and complete |
| C66 | all conversions between the colour spaces, gamut check, clipping, gamut mapping, over the reals | every space gets a relation between components and points of XYZ, written from chromaticities, white points and the formulas of CSS Color 4; each conversion is shown to stay in the relation; inverse curves and matrices by field arithmetic; the search for the chroma by an invariant on its bounds |
| C67 | the parser of colour functions, with relative colours, calc(), none and light-dark(); the printer of colours | a grammar with meanings, with a record that says where the code departs from CSS; each component parser is shown equivalent to its relation, then by induction on the token tree the parser accepts a text as a colour exactly if the grammar gives it that colour; printing by an invariant of colours that were read |
| C68 | the handler of borders with that of border images: slots for 8 sides, flushing, the choice of shorthands, rules for a direction | what is pushed and what is pending together give each longhand what the declarations so far give it: an invariant over the list of declarations, with `flush` analysed for every pattern of equal values; the order of pushed declarations and rules for the compiled case |
| C69 | reading of token lists (nested blocks, functions, var(), env(), url(), trimming of white space) and their printing, against the tokenizer of CSS Syntax written as a specification | for each kind of token a lemma that its text, followed by a text that cannot extend it, is read back as it; an induction over the list with the table of pairs that may touch; an induction over the source for what reading keeps |
| C70 | the loop that replaces variables in place, with its set of names seen, over the items of C69 | a relation for substitution as CSS states it; by induction on the rank of variables and on items, the loop ends with the related list whatever follows and whatever was seen before |
| C71 | the parsers and printers of all grid properties and the handler that merges them, over tokens | the grammar of CSS Grid as relations with meanings; each parser finds the meaning, each printer prints a form with this meaning, and the handler keeps, as an invariant, that what is printed so far and what is pending give together what was declared |
| C72 | the reader and printer of syntax strings over characters, the matching of values over component values with parameters for single values | the grammar of CSS Properties and Values as relations; by induction on components the reader finds the meaning, and the loop over components finds the first that fits the whole value |
| C73 | readers and printers of `flex` and `flex-flow` over tokens, the handler over longhands with sets of prefixes | the grammars of CSS Flexbox as relations; the cascade of a block for a browser that knows a set of prefixes; invariant of the handler by induction on the block |
| C74 | the reader, printer and handler of `position` | the cascade of a block for a browser that knows some forms of `sticky`; by cases on where the block ends, induction on the declarations of `sticky` at the end |
| C37 | compact_hex/expand_hex on bit vectors | bit arithmetic |
| C38-C41, C51-C53 | targets.rs, compat table, prefix handler | list induction, table lemma |
| C44 | resolution prefixing of media queries | evaluation semantics over resolution units |
| C45, C46, C47, C48 | positions, times, easing functions, leading zeros | token-level parser run on printed tokens; text-level lemma for numbers |
| C49 | PropertyId::from over the real property table | string lemmas; table conditions checked by computation |
| C42, C43 | napi map/visit_list, composeVisitors | loop invariant; refuted in general for C43 |

## What each model covers

* `MediaModel`, `MediaCustomModel`: src/media_query.rs (parser, printer, and/or, range lowering,
  resolution prefixing) and custom media resolution.
* `VisitorModel`: napi/src/transformer.rs list mapping, node/composeVisitors.js.
* `ValueModel`, `NumTextModel`: values/rect.rs, size.rs, position.rs, time.rs, easing.rs, and the
  textual shortening of numbers (values/number.rs, length.rs, percentage.rs).
* `VendorPrefixModel`, `PropertyTable`: vendor_prefix.rs and the `PropertyId` part of
  properties/mod.rs, with all 349 lines of the property table.
* `SupportsModel`: rules/supports.rs (parse, print, and/or, supported features) over trees of
  component values; whitespace, comments and the text of other tokens are opaque.
* `BloomModel`, `SelectorModel`: selectors/bloom.rs, builder.rs (storage order and specificity),
  matching.rs, nth_index_cache.rs and the ancestor hashes of parser.rs.  A document position is a
  zipper.  Attribute selectors and state pseudo-classes are conditions the embedding program
  answers.  Left out: shadow trees (`:host`, `::slotted`, `::part`), pseudo-elements, visited-link
  handling, the hover quirk, selector flags, invalidation.
* `IdentModel`: cssparser's `serialize_identifier` and `serialize_name` (the dependency the printer
  calls; modelled from its documented algorithm, since its source is not in the repository) over
  UTF-8 bytes.  `IdentSpec` is a reader written from CSS Syntax.
* `PatternModel`, `PrinterModel`: src/css_modules.rs, src/printer.rs and the ten kinds of places that
  print names.  A run is a list of print operations; printing functions are sequences of them.
  `PrinterOptSpec` states which option decides each name.  The standard hasher is a parameter.  Line, column are unbounded numbers; the 8-bit indent is not.
  Left out: dependencies and url rewriting, error locations.
* `DeclModel`, `ShorthandTable`: src/declaration.rs (get, set, remove), src/macros.rs and
  src/logical.rs with all 62 shorthands and 84 logical entries.  A value is the list of the texts of
  its items.  Left out: the grammar of values, `is_valid` of the grid shorthand (a parameter).
* `DeclTextModel`: src/declaration.rs (parse, to_css, to_css_block, to_css_declarations),
  `Property::parse` and `to_css`, and the token lists of src/properties/custom.rs, over component
  values (brackets already matched).  `glue` models how the tokenizer joins tokens that are printed
  beside each other.  The grammar and printer of typed values are parameters with the hypothesis that
  they read what they print.  Left out: colours, urls, dimensions and `env()` indices inside token
  lists, and numbers joined with names.
* `SideModel`: the `side_handler!` macro of src/properties/margin_padding.rs (margin, padding,
  scroll-margin, scroll-padding, inset) with the rules for the direction that
  src/context.rs collects.  Values and unparsed token lists are abstract; equality of values and
  compatibility with the targets are parameters.  Left out: fallbacks inside unparsed values.
* `ShortModel`: the `shorthand_handler!` macro of src/macros.rs (outline, list-style, container) over
  n numbered longhands with abstract values, with `fallback_key`, generated fallbacks and the
  `@supports` rules of unparsed values as events; and the two-longhand handlers of
  src/properties/overflow.rs and of the gap part of align.rs.
* `PrefixModel`: `PrefixHandler` and `FallbackHandler` of src/properties/prefix_handler.rs and
  `Targets::prefixes`; values are abstract, the prefix table is a parameter, and the `@supports` rules
  of the fallback handler's unparsed values are left out.
* `TargetsModel`, `TargetsTable`: src/targets.rs, `is_compatible` and `is_partially_compatible` of
  src/compat.rs (124 rows for 222 features) and `prefixes_for` of src/prefixes.rs (75 rows for 184
  features), the colour fallbacks of src/values/color.rs with colours known by their kind only, and the
  scopes of src/rules/supports.rs.  Left out: the generated gradient fallbacks.
* `ColorModel`: the RGBA branch of `CssColor::to_css` in src/values/color.rs (hex digits, short forms,
  the names it prefers, `rgba()` for targets without hex alpha).  Alpha is computed in single precision
  with the standard library's SpecFloat; its decimal text is the shortest one that reads back.  The
  table of CSS colour names in `ColorSpec` is written from the CSS specification.
* `BundleModel`: src/bundler.rs.  `load_file` is a transition system: a state is the list of
  sheets and the calls that were started; a schedule picks the next call.  `order` and `inline` use
  fuel, and termination (C11) shows that enough fuel exists and that more does not change the
  result.  Parsing, resolution, source maps and renaming inside `composes` are abstracted.
* `NestModel`: `serialize_selector`, `serialize_component`, `serialize_nesting`, `is_type_selector`,
  `is_simple` and `is_unused` in src/selector.rs, and how src/rules/style.rs and nesting.rs print and prune
  nested rules when nesting is compiled.  Selectors are lists of components in source order; names are
  numbers, the printed text is the list of printed components.  Not modelled: namespaces, vendor prefixes of
  selectors (`:-webkit-any()` for `:is()`), `:lang()`/`:dir()` compilation, spelling and whitespace, `@nest`
  and `@scope`, other nested at-rules than conditional groups.  `NestSpec` gives the meaning of selectors in an
  arbitrary document, which printed selectors can be read, specificity, and the blocks of a sheet.
* `CalcModel`: `Calc::parse_with` and its helpers, `Calc::add`, `Mul`, `TrySign`, `ToCss` in
  src/values/calc.rs, and the additions, comparisons and operations of `Length`, `DimensionPercentage`, `Percentage`,
  `Time` and `Angle`.  Numbers are exact rationals, `f32::sqrt` is any function with the laws of a square root
  (`good_root`; an instance is in `CalcExamples`), the degrees in a radian are any number.  Expressions are trees as CSS
  precedence groups them, printed text is a list of tokens.  Additions that call each other without end run out of
  fuel.  Not modelled: trigonometric functions, `pow`, `log`, `sqrt`, `exp`, `atan2`, constants, NaN and infinity, the
  characters of tokens.  `CalcSpec` has the value of expressions after CSS Values 4 and a reader for tokens.
* `MinifyModel`: `CssRuleList::minify`, `merge_style_rules` and `StyleRuleKey` in src/rules/mod.rs,
  `StyleRule::minify`, `is_duplicate` and `is_empty` in src/rules/style.rs, and `minify` of the rules with
  blocks.  Selectors, values, conditions and keyframe bodies are numbers; what the code asks about them
  is a record of functions (`config`), and `faithful` says what they have to do.  The hash of a key is the
  key itself (no collisions).  A ghost log records removed and merged rules.  Left out: the extra rules
  for logical properties and `@supports`, `@nest`, `@font-feature-values`, `@custom-media`, fallbacks of
  keyframes and palettes, errors.  `MinifySpec` gives the meaning of a sheet for one element in one
  browser, from the CSS specifications.
* `BlockModel`: `DeclarationBlock::minify`, `handle_property`, `handle_custom_property`, `handle_all`, `finalize` in
  src/declaration.rs over any list of handlers, with the additional rules of src/context.rs.  `BlockHandlers` puts the
  models of `SideModel`, `ShortModel` and `PrefixModel` (with indices into the shared list) in the order of the code, and
  reuses them for one block after another.  `BlockSpec` has the contract that a handler must meet and the value that
  each property is given by a whole block; the proofs show that every modelled handler meets it.  Left out: the other
  handlers of the code (background, border, flex, font, transition, ...), `@supports` rules of the fallback handler.

* `UrangeModel.v` (src/rules/font_face.rs 303–368): printing of unicode ranges, characters included; code points are
  natural numbers, hexadecimal formatting is Rust's.
* `PlaceModel.v` (src/values/position.rs): parsing and printing of positions. Tokens are keywords and lengths; what a length
  is worth in a given room is a parameter, also used for calc(). Numbers are rational.
* `AnimModel.v` (src/properties/animation.rs 27–163, 193–205, 584–717; src/values/easing.rs; src/values/ident.rs 30–46): the
  animation shorthand. Functions are tokens that carry what they are parsed to, numbers are rational, CSS modules are off.

* `MatrixModel.v`, `TransformModel.v`, `DecomposeModel.v` (src/properties/transform.rs, src/values/angle.rs): all transform
  functions with their parsers, printers and matrices, the matrix operations and the decomposition.  Numbers are real, not
  f32.  Arguments are tokens; a length is a token with its value (zero, `is_zero` and `to_px` are parameters with a
  contract), and its kind says whether a length or a length-percentage is read there.
* `TransformBlockModel.v` (src/properties/transform.rs 1709–1819): `TransformHandler`, with functions and values as
  parameters, and declarations of other properties that are pushed past it.
* `AnbModel.v` (selectors/parser.rs `write_affine`; cssparser `parse_nth` and the tokenizer as far as An+B reaches it): from characters
  to step and offset and back.  cssparser is not in /repo: it is modelled after its published behaviour (clamping to
  32 bits included).  Escapes and comments inside An+B are left out.
* **Selectors as text (`SelText*.v`, C63)**: selectors/parser.rs 2100-3130 (lists, relative selectors, combinators, compounds, type and attribute selectors, pseudo classes and elements with and without arguments, the parser state) and src/selector.rs 97-345, 661-853, 1087-1127, 1148-1275, 1367-1799 (printing). Tokens are trees: a function or a block holds its tokens. An+B is one token with its text and is read by `AnbModel.v`. Left out: CSS modules (`:local`, `:global`), default namespaces, targets and vendor prefixes (see the selector compatibility models), pseudo classes that the printer replaces by user classes. A name that is printed without escapes goes through the table `raw` of the configuration. What `[attr]` does depends on a table of HTML attributes that is a parameter.
* **Grammar of selectors (`SelGram*.v`, C64)**: no new code; the same functions as C63. `SelGramSpec.v` lists the names of the standards and joins the texts of the parts; the tables of the code are looked up in `SelGramWords.v`.
* **Blocks, one direction (`BlockDir*.v`, C55)**: the declarations of a block and of the rules that are added for one direction give each side what the declarations of the input gave it.
* **Mixing colours (`ColorMix*.v`, C65)**: src/values/color.rs 3247-3684 over the conversions of `ColorSpaceModel.v`. Numbers are real; NaN is an absent number; a colour is one token of the text. Left out: targets, and how callers keep a color-mix() that is not resolved.
* **Colour spaces (`ColorSpace*.v`, `ColorConvert*.v`, C66)**: src/values/color.rs 1560-2918 and 2919-3240. Numbers are real, so f32 rounding and overflow are left out; NaN is an absent number; powf, cbrt, atan2 and sqrt are those of the real numbers. `hsl_to_rgb` and `hwb_to_rgb` come from the cssparser-color crate, whose source is not in /repo: they are modelled after its published version 0.1.0. The matrices are those of the code; the spec derives them from chromaticities.
* **Colour functions (`ColorText*.v`, C67)**: src/values/color.rs 530-660, 690-1485. A text is a tree of tokens: hex colours, named colours, system colours and currentColor are leaves that stand for their colour (cssparser and `ColorFallbackKind` are not modelled). calc() is modelled with +, -, *, / and nested calc(); its other functions are not. `print` is modelled with light-dark() supported and without the minifier's choice of names for bytes. Missing components are absent numbers; NaN from other computations is left out.
* **Borders (`Border*.v`, C68)**: src/properties/border.rs 470-1369 and src/properties/border_image.rs 340-545. Values are of one type with a given equality, test for compatibility and fallbacks of colours; a browser is assumed to know all of them. Left out: vendor prefixes and fallbacks of border images, what `add_unparsed_fallbacks` does to unparsed values, border-radius (a handler of its own).
* **Token lists (`Tok*.v`, C69)**: src/properties/custom.rs 228-571, 841-986, 1193-1229, 1356-1433; src/values/number.rs 37-46, src/values/length.rs 486-511, src/values/url.rs 40-85. The serializer of the cssparser crate (names, strings, addresses, numbers with sign and `.0`, units) is transcribed from that crate and trusted to be as written here; the digits of a number come from dtoa_short and are given as a numeral. Readers of typed values (colours, lengths, angles, times, resolutions) are any functions from the source to the tokens that their printers write. Left out: placeholders of dependencies, CSS modules, animation names, infinite numbers, known names of env() in another case.
* **Substitution of variables (`Subst*.v`, C70)**: src/properties/custom.rs 1128-1178. Left out: token lists inside colours with unresolved components; the parsing of the printed value (176-198).
* **Grid (`Grid*.v`, C71)**: src/properties/grid.rs, all parsers, printers and the handler. Lengths and percentages other than 0 are opaque; letter case counts as in the code; white space is one piece. Left out: CSS modules (names are written as they are), the escapes in the strings of areas, vendor prefixes (there are none), declarations that are not valid other than those named in the findings, `subgrid` and `masonry` (the code has neither).
* **Syntax strings (`Syntax*.v`, C72)**: src/values/syntax.rs, and the initial value in src/rules/property.rs. A single value is one component value, read and printed by parameters. Left out: escapes in literals (the code has none), the universal syntax for values (token lists, C69), the declarations of the rule, the shortening of transforms when minified.
* **Flex (`Flex*.v`, C73)**: src/properties/flex.rs except the handlers of alignment, and `Targets::prefixes`. Numbers are integers, sizes are opaque except for zeros. Left out: the tables of prefixes for browsers (a parameter), the texts of the longhands and of the properties of 2009 and 2012.
* **Position (`Position*.v`, C74)**: src/properties/position.rs without `z-index`. The table of prefixes for browsers is a parameter.

## Findings: properties the code violates

Each is a `_refuted` theorem with a witness computed by the model.

* Media queries: `not (width = 100px)` is printed as `(width = 100px)`; `screen and (not (not (a or b)))`
  loses parentheses; the empty list prints `not all`; `MediaList::and` is wrong for conflicting
  types with conditions, negated queries, and several queries; `or` with an empty list; custom media
  with typed definitions; resolution prefixing skips the query after one it prefixed.
* Supports conditions: an operand that is not the first of its list loses its vendor prefix
  (`(display: grid) and ((-webkit-mask: none) or (mask: none))` keeps only `mask`);
  `(-webkit-mask: none) and (mask: none)` is merged into a disjunction; a nested conjunction printed
  without parentheses loses a prefix when read again.
* Selectors: `:has()` counts nothing towards specificity; the parse-order iterator reverses the
  components of each compound; matching `:nth-child(... of S)` and `:has()` panics; `:nth-child(n - 2147483648)`
  matches nothing because the subtraction overflows.
* Printer: the column counts the unescaped bytes of a renamed name; `write_char` counts one for any
  character; 128 nested blocks overflow the indent.
* CSS modules: the empty pattern is accepted and panics; a class and a custom property both named
  `--x` share an export; with `animation` on and `custom_idents` off, `animation-name` keeps the local
  name while `@keyframes` is renamed; `animation-name: "none"` and counter styles are exported
  without being renamed; a class composed twice from a bundled file is listed twice, and one composed
  from a file printed later is lost; `var(--a_b from "c")` and `var(--a from "b_c")` share a
  placeholder; `[hash][local]` can give two files the same name; `@keyframes ""` prints no name.
* Property names: `-webkit-all` is read as `all`.
* Declaration blocks: `set` changes a shorthand in place although a later longhand overrides it; a
  normal declaration set under an important shorthand is not the value; the single border field
  that stands for four sides, list shorthands with a different number of items, shorthands with
  `var()` and `all` keep winning after `set`; `get` ignores shorthands with `var()` and `all`;
  `get("transition")` is empty as soon as the block has any other declaration; a prefixed shorthand
  with an unprefixed longhand (`-webkit-border-image`) is not seen by `get`, and `remove` drops the
  whole shorthand; setting `-webkit-align-content` changes `align-content` in `place-content`; `get`
  of a shorthand is empty when a normal longhand stands beside the important shorthand; removing a
  longhand of a shorthand with `var()` drops all its longhands; removing `border-top` leaves
  `border`.
* Declarations as text: minifying drops a comment between two names and joins them
  (`--a: x/**/y` becomes `--a:xy`); printing with whitespace turns an empty value or an empty
  `var()` fallback into whitespace, and the whitespace of `--a: !important` grows each time.
* Visitors: `composeVisitors` shares its `seen` set between sibling replacements.
* Numbers: the shortened text of negative numbers in scientific notation is wrong.
* Bundler: files on an import cycle that avoids the entry are dropped; an import after an unknown
  at-rule is loaded but not inlined; order with `@import "a"; "b"; "a"` when a and b share a
  dependency; layer order in the same situation; an entry file that composes from itself overflows
  the stack; conditions of the first import of a file stick to the files it imports, so the result
  depends on the schedule, and so does success; external imports lose the conditions of the
  importing file; `@import "a"; @import "a" layer(x)`; files below an anonymous layer.
* **Box sides (C20)**, where logical properties are compiled: the rules for the direction come
  after the block, so `margin-inline-start: 1px; margin-left: 2px` gives 1px, an inline pair with equal
  values after an unequal one is lost, and the rules lose `!important` to the wrong side.  Four
  longhands become one shorthand even if a target does not know the last value and then ignores
  all four.  `inset-block-start: 1px; inset: <new>` drops the older declaration that was the fallback.
* **Shorthand handlers (C22)**: `overflow: hidden; overflow: clip` loses the fallback for browsers
  without `clip`.  A fallback that is generated for a shorthand replaces the author's own longhand
  fallback.  The `@supports` rule that is made for an unparsed value comes after the block, so it beats
  declarations that follow the unparsed one.  A shorthand that mixes values a browser knows and does
  not know can drop longhands that used to be set.
* **Prefix handlers (C41, C51)**: `-webkit-x: a; x: a; -webkit-x: b` changes `x` to `b`.  With targets
  that need `-webkit-`, `x: a; -webkit-x: b` changes `x` to `b`.  `x: a; x: var(--y); x: b` is printed
  with the `var()` last.  `x: a; x: new` loses the fallback for browsers without the new value.
  `caret-color: a; caret: b; caret-color: c` is printed as `caret-color: c; caret: b`.
  `filter: a; -webkit-filter: b` loses `filter`.
* **Targets (C38-C40, C52, C53)**: Chrome 300 becomes Chrome 44.  Browsers such as `ie_mob` are ignored
  without an error.  Inside `@supports (--x: lab(...))` and `@supports (color: var(--x, lab(...)))` lab()
  is taken as supported although the condition holds in every browser with variables.  A feature that
  is included and excluded is compiled; excluding nesting turns off the compilation of all selectors.
  Prefixes are looked up for the exact target version: target Opera 12 gives `-o-transform` only although
  Opera 15 needs `-webkit-transform`, target Edge 18 gives no `-webkit-appearance` for Edge 80.
  `light-dark(currentColor, lab(...))` panics for targets without lab().
* **Nested rules (C33, C34)**: a single enclosing selector takes the place of `&` if it has no combinator and
  no type, but its own `&` may bring some in: `.a .b { &.x { .dark & {} } }` becomes `.dark .a .b.x`,
  `div { &.a { .x& {} } }` becomes `.xdiv.a`.  At the start of a selector inside `:has()` and of an unwrapped
  `:is()` any selector is put in: `.a .b { .c:has(> &) {} }`, `.a .b { .x:is(&) {} }` becomes `.x.a .b`.
  `&div` is swapped in the first compound only: `.foo { .x > &div {} }` becomes `.x > .foodiv`.  `:host(&)` and
  `::slotted(&)` use the printer's context instead of the one of the selector and recurse for ever:
  `.a { :host(&) { & .b {} } }`.  `&` outside of rules becomes `:scope`, which counts as a class.  Rules inside
  of an unused rule are all dropped, also `.unused { :not(&) {} }` and `.unused { :is(.b, &) {} }`.
* **Math functions (C35, C36, C54)**: `round(-15px, 10px)` is read as -20px (ties go away from zero, not up),
  `round(up, 5px, -10px)` as 0px.  `hypot(-1px)` stays negative; `hypot(1pc, 0pc, 0px)` squares in picas and then
  converts to pixels: 4px instead of 16px.  `min(10%, 20%)` becomes 10%, which is wrong where percentages refer to a
  negative length (`background-position`).  `sign(1vw)` becomes 1 although vw may be zero.  `calc(0 * min(1px, 1em))` is
  printed as a division by infinity.  `min(1px + 1em)` is printed as `1px + 1em` without a function.
  `calc((1px + 1em) + (1vw + 1vh))` recurses for ever (stack overflow): `Calc::add` of two sums calls
  `AddInternal::add`, which finds nothing to merge and calls `Calc::add` again.  `calc(1px * sign(1em - 10px))` is not
  accepted.  `abs(10%)` and `calc(5)` where a percentage is expected (`opacity: abs(10%)`) hit an `unreachable!()`.
  `calc(5)` is accepted as a length.
* **Minification of rules (C14-C16)**: a rule is dropped for a later one with the same selectors and
  properties even if its declaration is important and the later one is not
  (`.a{color:red!important} .b{width:3px} .a{color:blue}`).  A rule can be found under its own key
  and drop itself: `.x{color:red} .a{color:blue} .a{color:red} .a{color:green}` loses the last rule, because
  the table still has an entry for the place where a merged rule was.  Dropping duplicates loses the
  fallback for browsers without the later value.  `.a::-webkit-input-placeholder{color:red}
  .a::-moz-placeholder{color:red}` is merged and then printed with `::placeholder` for the second.
  `.a{color:red} .a, .b:new{width:1px}` with targets that do not know `:new` loses the rule for `.b:new`.
  `@layer a{} @media{@layer a{}} @layer a{}` moves the third block before the second.
  `@layer a; @media{@layer b{}} @layer c;` becomes `@layer a, c`, which changes the order of `b` and `c`.  Blocks
  of `a` around one of `a.b` are joined, which changes the order of the layers in `a`.  `@keyframes` and
  `@property` take the place of an earlier rule even if one inside of a condition is between them.
  Anonymous layers alone are never minified inside (`has_layers` is set by names only).
* **Whole blocks (C55)**: `direction: ltr; direction: var(--d)` ends with `direction: ltr` (the parsed value is written at
  the end); `direction: var(--d); all: unset` loses the direction, which `all` does not reset.  `margin: 1px; all: var(--x)`
  becomes `all: var(--x); margin: 1px`.  Rules that were added for declarations before `all`, or before a later
  declaration of the same custom property, stay and win: `margin-inline-start: 1px; margin-top: 2px; all: unset` with old
  targets, and `--x: lab(...); --x: red`.  In style attributes `--x: lab(...)` is replaced by its fallback colour and the
  original is lost.  The text of a block depends on the rules before it: after `margin-inline-start: 1px` in another
  rule, `margin: 1px; margin-top: 2px` is no longer merged, because the category of the handler is kept.

* **Positions (C57)** hold, but printing is not idempotent: `left 10px top 50%` is printed as `10px 50%`, and this, read
  again, as `10px`.
* **Animations (C58)**: the checks for names that are keywords compare easing functions and `infinite` with the letter case,
  so `ease EASE 1s` becomes `1s EASE` and `"Infinite" 1s` becomes `1s Infinite`, which name no animation. `none foo none`
  (timeline `none`) becomes `foo none`. Without a name all other longhands are dropped (`1s` becomes `none`), which shows when
  a longhand `animation-name` follows. An empty value is accepted.

* **Transforms (C59)**: `perspective(none)` is not read, and `perspective(-1px)` is.  `Angle::Rad` is always printed in
  degrees, because `round().fract()` is always 0; this is harmless over the reals.
* **Matrices (C60)**: `to_matrix` does not clamp perspective distances to one pixel.  `decompose` puts the scale before the
  rotation (wrong unless the scale is uniform), passes shear factors as angles, and gets the axis of half turns wrong when
  its coordinates have different signs; it also divides the axis by its greatest coordinate, which can be zero or negative.
* **Transform blocks (C61)**: `transform: translate(10px); rotate: 90deg` becomes `transform: translate(10px) rotate(90deg)`,
  although CSS applies `rotate` outside of `transform`; `transform: none; rotate: 1deg; rotate: 2deg` rotates twice;
  `translate: 10px; transform: rotate(3deg)` loses `translate`; `transform: none; rotate: none` becomes a transform without
  effect, which still makes a containing block; `-webkit-transform: a; transform: a; -webkit-transform: b` changes `transform`.
* **An+B (C62)**: `n - 2147483648` is read with the offset -2147483647, since the digits are clamped before the sign is applied.
* **Selectors as text (C63)**: `:nth-col(1)` and `:nth-last-col(1)` are printed without the closing parenthesis. `:lang("")` is printed as `:lang()`, which is not accepted. `:-moz-placeholder` is printed as `:-moz-placeholder-shown` and `:-ms-input-placeholder` as `:-ms-placeholder-shown`; `::-ms-input-placeholder` is read as the element of Mozilla. `.a:is(&div)` is printed as `.a&div` and `a &*|*.b` as `a &*|.b`, which are not accepted. `:nth-child(1 of :scope > a)` is printed as `:nth-child(1 of > a)`, which matches nothing; `:has(a :scope b)` loses `:scope`; `:has( *:scope > a)` is printed as `:has(:scope > a)`, which is read as `:has(> a)`. In a nested rule `:is(&!, .b)` gets no `&` although the part with `&` is dropped, and is printed as `.b`, which is read as `& .b`; `:nth-child(1 of &)` gets a second `&` before it. Names of unknown pseudo classes and elements are printed without escapes. `a:is( *.b )` is printed as `a:is(.b)`, which is printed as `a.b`. `&a|` is read as `&`, `::view-transition-group(a!)` as `::view-transition-group(a)`, and with the deep combinators `a/` as `a`.
* **Selector text (C64)**: `::-ms-input-placeholder` is read as the element of Mozilla (src/selector.rs:283). Within `::slotted()` and `:host()`, combinators are not allowed even inside `:is()`: `::slotted(:is(a > b, c))` silently becomes `::slotted(:is(c))`. In a nested rule `:nth-child(odd of &)` and `::cue(&)` are put below `&` as if no `&` stood in them (the state is passed by value, selectors/parser.rs:2866-2871).
* **Mixing colours (C65)**: percentages below 0% and above 100% are accepted, although CSS makes them invalid (color.rs:3267-3287). A mix that is fully transparent gets missing components in lch(), oklch(), hsl() and hwb(), since zero is divided by zero (color.rs:3557-3640); the rectangular spaces check for that. A missing component does not stay missing when a colour is converted: `lab(none 40 0)` mixed in lch with `lch(50 10 0)` has lightness 25, not 50.
* **Colour spaces (C66)**: components of prophoto-rgb below -1/32 become missing when they are converted, since a negative number is raised to the power 1.8 (color.rs, `From<ProPhoto> for XYZd50`); the curve of CSS Color 4 goes on below zero with its sign. The pieces of the sRGB curve and of the rec2020 curve do not quite meet, so components next to the joint do not come back; that is so in CSS Color 4 as well.
* **Colour functions (C67)**: a relative colour without an alpha gets alpha 1 and not the alpha of its origin (`parse_alpha`, color.rs 1387-1411), so `lab(from rgb(0 0 0 / 50%) l a b)` becomes opaque. The keyword `h` has the type of an angle, so `calc(h + 60)` is rejected, and so are keywords in a calc() within calc(). The old notation of hsl() takes numbers for saturation and lightness, and the old notations take `none` for the alpha. `lab(calc(1% + 1) 0 0)` and `rgb(10%, calc(1), 5%)` reach `unreachable!()` in `Percentage::parse`.
* **Borders (C68)**: `border-width`, `border-style` and `border-color` (or four whole sides) are merged into `border`, which also resets border-image, although the source did not: an image from another rule, or an unparsed one earlier in the block, is lost. An image followed by `border: var(--b)` is printed behind it, and is drawn although the source takes it away. The other way round, `border` followed by four sides that all differ is dropped, and with it the reset. `border; border-image: …; border-image-source: <not known to all targets>` prints the image before `border`, which then resets what `border-image` gave. With targets that know logical borders but not their shorthands, `border-inline-width: 1px` becomes border-left-width and border-right-width, also for vertical text. With targets that do not know logical borders, `border-inline-width` is still printed when all four logical sides are complete and only the inline widths differ. `border: A; border: B` loses A even if targets do not know B. Compiled, a later physical declaration loses against an earlier logical one, as in C20.
* **Token lists (C69)**: nothing is written between tokens that touch, so tokens run together when what separated them is not printed: `a/**/b` becomes `ab` (minified), `1+5` becomes `15`, `a+5` becomes `a5`, `1.0.5` becomes `1.5`, `a#ff0000` becomes `ared`; in rules that are not known `a.5` becomes `a0.5`. A dimension with the unit `e5` (`1\65 5`) is printed `1e5`, a number. `-1e-7px` is printed `--1e-7px`, a name (the leading zero that is cut off is not there). A backslash before a line break is printed, minified, as an escaped space.
* **Substitution of variables (C70)**: the set of names seen is cleared at every token that stays, so `--a: x var(--a)` is substituted for ever, with a list that grows. It is not cleared when a variable is replaced by nothing, so with an empty `--e` the second reference in `var(--e)var(--e)` is left. The result is printed and parsed again, and `var(--a)var(--b)` with 1 and 2 becomes 12.
* **Grid (C71)**: (1) `grid-template: "a" 1fr [x] "b" 2fr` is printed with `[x]` before the first row: names of the first line are only recorded if present, so the list of names shifts (grid.rs 744-777). (2) Not minified, `[a b] "x" 1fr` is printed as `[a] [b] "x" 1fr`, which is invalid. (3) `Grid::is_valid` does not look at `grid-auto-columns` when there are areas and no rows, so its value is lost. (4) With more rows of areas than tracks, the merged `grid-template` has tracks `auto` for the rest, while `grid-auto-rows` would have given their size. (5) Rows of dots added to the areas stay if a later `grid-template-rows: var(...)` replaces the tracks. (6) Areas that are no rectangles are accepted, and merged into one `grid-template` they make rows and columns invalid. (7) An empty `grid-template-areas:` is accepted, and with rows and columns its padding divides by zero: a panic. (8) `grid-auto-flow: dense` alone, `none / 1fr` in `grid-template`, and a negative or misplaced `span` are not read, and stay as they are. (9) Not modelled: reading shorthands back with `DeclarationBlock::get` does not pad areas, so tracks are lost there.
* **Syntax strings (C72)**: a component without multiplier is taken as soon as the value begins with it: with `"<length> | <length>+"` the initial value `1px 2px` becomes `1px`. `PropertyRule::parse` does not check that the value ends there, so with `"<length>"` the invalid `1px 2px` becomes the valid `1px`. Only spaces and tabs are white space; a newline in the string is refused. Literals that begin with `-` are refused, and `inherit` etc. are accepted. Type names are compared without regard to letter case, in CSS they are case-sensitive.
* **Flex (C73)**: empty values of `flex` and `flex-flow` and negative factors are accepted, so an invalid declaration replaces a valid one before it. If a value was written with two prefixes and then changed under one of them, both change: `-ms-flex: 1 1 auto; flex: 1 1 auto; flex-grow: 2` gives `-ms-flex: 2 1 auto`. The old properties are written first, so `-ms-flex: 1 1 auto; -ms-flex-positive: 2` loses the 2. With browsers `flex-direction` drops an earlier `-webkit-box-orient`, which `display: -webkit-box` (line clamping) needs. For browsers of 2009 `order: 0` becomes `box-ordinal-group: 0`, which is invalid, and `flex-flow: wrap` gives no `box-lines` while `flex-wrap: wrap` does.
* **Position (C74)**: `PositionHandler` only takes parsed values and writes them at the end of the block. A value with `var()` is pushed at once, so `position: relative; position: var(--x)` becomes `position: var(--x); position: relative` and the variable has no effect. `position: relative; position: sticky` loses the fallback for browsers without `sticky`.
* **Sizes of tracks (C71)**: `grid-auto-rows` and `grid-auto-columns` accept an empty value, which CSS drops, as `auto`.

## Trusted base

Coq's kernel (with vm_compute), the hand translation from Rust to Gallina, and the
specification files.  No axioms are declared.  The theorems about transforms use the real
numbers of the standard library, whose axioms are those listed for them below
(`ClassicalDedekindReals.sig_forall_dec`, `ClassicalDedekindReals.sig_not_dec`,
`FunctionalExtensionality.functional_extensionality_dep` and, through the inverse tangent,
`Classical_Prop.classic`).  See the end of this file for the list of
`Print Assumptions` results.

## Not modelled

The cssparser tokenizer, f32 rounding (rational arithmetic is used instead), serde, napi glue,
the bulk of individual property grammars, memory layout.

## Print Assumptions results

`Closed under the global context` (no axioms) for every one of these theorems:

* `AnbProps.v`: C62_read_partial, C62_least_refuted, C62_printed, C62_round_trip, C62_one_meaning
* `AnimProps.v`: C58_read, C58_accepted, C58_unambiguous, C58_written_partial, C58_name_case_refuted, C58_count_case_refuted, C58_timeline_refuted, C58_nameless_refuted, C58_empty_refuted
* `BlockDirProps.v`: C55_direction_rules_partial, C55_keyframe_custom_partial
* `BlockProps.v`: C55_any_handlers_partial, C55_sides_partial, C55_compiled_sides_partial, C55_shorthands_partial, C55_pairs_partial, C55_prefixes_partial, C55_fallbacks_partial, C55_unhandled_partial, C55_direction_partial, C55_custom_partial, C55_direction_refuted, C55_direction_reset_refuted, C55_all_refuted, C55_dir_rules_refuted, C55_supports_refuted, C55_attribute_refuted, C55_history_refuted
* `BorderProps.v`: C68_supported_partial, C68_compiled_partial, C68_image_partial, C68_image_gone_partial, C68_image_raw_refuted, C68_vertical_refuted, C68_image_reset_refuted, C68_image_kept_refuted, C68_image_fallback_refuted, C68_later_physical_refuted, C68_not_compiled_refuted, C68_fallback_refuted
* `BundleCondProps.v`: C12_operations_exact
* `BundleProps.v`: C09_loaded_once, C09_emitted_at_most_once, C09_emitted_once_partial, C09_cycle_refuted, C09_late_import_refuted, C10_order_partial, C10_order_refuted, C10_layer_order_refuted, C11_loading_terminates, C11_bundling_terminates_partial, C11_self_composes_refuted, C12_conditions_sound, C12_conditions_complete_partial, C12_media_lists, C12_layer_partial, C12_layer_statements_partial, C12_layer_conflict, C12_conditions_complete_refuted, C12_external_refuted, C12_unlayered_refuted, C12_anonymous_refuted, C13_same_files, C13_numbering, C13_unconditional_partial, C13_single_partial, C13_conditions_refuted, C13_success_refuted
* `CalcProps.v`: C35_length_percentages_partial, C35_lengths_partial, C35_times_partial, C35_angles_partial, C35_percentages_partial, C35_rounding_ties_refuted, C35_negative_steps_refuted, C35_single_hypot_refuted, C35_hypot_units_refuted, C35_negative_percentages_refuted, C35_vanishing_sign_refuted, C36_length_percentages_partial, C36_lengths_partial, C36_single_argument_refuted, C36_zero_factor_refuted, C54_length_percentages_partial, C54_lengths_partial, C54_times_partial, C54_angles_partial, C54_percentages_partial, C54_nested_sums_refuted, C54_signs_refuted, C54_percentage_panics_refuted, C54_numbers_refuted
* `ColorProps.v`: C37_exact, C37_shortest
* `DeclProps.v`: C17_get_longhand_partial, C17_get_shorthand_sound_partial, C17_get_shorthand_complete_partial, C17_set_wins_partial, C17_set_others_partial, C17_set_order_partial, C17_set_get_longhand_partial, C17_set_get_shorthand_partial, C17_shadowed_refuted, C17_important_refuted, C17_grouped_refuted, C17_uneven_refuted, C17_unparsed_refuted, C17_all_refuted, C17_list_refuted, C17_prefixed_shorthand_refuted, C17_prefixed_longhand_refuted, C17_mixed_refuted, C18_remove_longhand_partial, C18_remove_shorthand_partial, C18_unparsed_refuted, C18_prefixed_shorthand_refuted, C18_overlap_refuted
* `DeclTextProps.v`: C19_reparse_partial, C19_reparse_body_partial, C19_print_partial, C19_rule_partial, C19_order_partial, C19_rule_order_partial, C19_comment_refuted, C19_empty_refuted, C19_growing_refuted, C19_fallback_refuted
* `FlexProps.v`: C73_flex_read_partial, C73_flex_printed, C73_flex_accepted_partial, C73_flow_read, C73_flow_printed, C73_flow_accepted_partial, C73_empty_refuted, C73_negative_refuted, C73_block_partial, C73_aliases, C73_targets_partial, C73_direction_2009_partial, C73_prefix_refuted, C73_legacy_order_refuted, C73_legacy_dropped_refuted, C73_ordinal_refuted, C73_lines_refuted
* `GridProps.v`: C71_block_partial, C71_one_value, C71_one_reading, C71_names_refuted, C71_two_names_refuted, C71_auto_columns_refuted, C71_more_areas_refuted, C71_later_rows_refuted, C71_rectangles_refuted, C71_empty_areas_refuted, C71_size_accepted, C71_auto_accepted_partial, C71_empty_auto_refuted
* `MediaProps.v`: C01_media_print_parse_partial, C01_negated_equality_refuted, C01_typed_double_negation_refuted, C01_empty_list_refuted, C02_media_and_partial, C02_and_disjoint_types_refuted, C02_and_negated_type_refuted, C02_and_negated_condition_refuted, C02_and_several_refuted, C02_and_contained_refuted, C03_media_or_partial, C03_or_empty_refuted, C04_always_matches, C04_never_matches, C05_range_lowering_partial, C06_custom_media_ok_partial, C06_custom_media_error_partial, C06_custom_media_terminates, C06_custom_type_in_or_refuted, C06_custom_reference_left_refuted, C06_custom_empty_operation_refuted, C44_resolution_prefixes, C44_adds_variants, C44_old_browsers, C44_variant_skipped_refuted
* `MinifyProps.v`: C14_finishes, C14_unique, C14_cascade_partial, C14_proper_partial, C14_others_partial, C14_tidy_partial, C14_importance_refuted, C14_own_key_refuted, C14_fallback_refuted, C14_prefixes_refuted, C14_split_refuted, C14_layer_refuted, C15_layers_partial, C15_condition_refuted, C15_dotted_refuted, C16_keyframes_partial, C16_property_partial, C16_condition_refuted, C16_property_refuted
* `NestProps.v`: C33_selector_partial, C33_rules_partial, C33_finishes_partial, C33_leading_refuted, C33_has_refuted, C33_is_refuted, C33_type_refuted, C33_type_later_refuted, C33_host_refuted, C33_root_refuted, C34_kept_partial, C34_removed, C34_not_refuted, C34_list_refuted
* `PlaceProps.v`: C57_kept, C57_read, C57_printed, C57_values
* `PositionProps.v`: C74_read, C74_printed, C74_block_partial, C74_targets_partial, C74_unknown, C74_tokens_partial, C74_fallback_refuted, C74_tokens_refuted
* `PrefixProps.v`: C41_merge_partial, C41_unprefixed_last_partial, C41_no_new_values, C51_fallback_partial, C41_prefix_after_standard_refuted, C41_targets_refuted, C41_unparsed_refuted, C41_old_value_refuted, C51_caret_refuted, C51_prefixed_refuted
* `PrinterOptProps.v`: C24_option_on, C24_option_off_partial
* `PrinterProps.v`: C23_written, C23_unique, C23_accepted, C23_unknown, C23_unclosed, C23_total, C23_empty_panics, C24_map_partial, C24_printed_partial, C24_dashed_partial, C24_dashed_reference_partial, C24_file_reference_partial, C24_composes_partial, C24_composes_bundle_partial, C24_key_refuted, C24_animation_refuted, C24_string_refuted, C24_counter_refuted, C24_twice_refuted, C24_order_refuted, C24_placeholder_refuted, C25_pattern, C25_files_partial, C25_exports_partial, C25_exports_files_partial, C25_adjacent_refuted, C26_position_partial, C26_mappings_partial, C26_escape_refuted, C26_multibyte_refuted, C27_modes, C27_content, C27_indentation_partial, C27_overflow_refuted, C50_ident_partial, C50_sites_partial, C50_dashed, C50_dashed_reference, C50_empty_refuted
* `SelGramProps.v`: C64_read_partial, C64_one_meaning, C64_nested_partial, C64_unnested, C64_placeholder_refuted, C64_slotted_refuted, C64_nested_refuted
* `SelTextProps.v`: C63_read_back_partial, C63_nested_partial, C63_unreadable_refuted, C63_placeholder_refuted, C63_scope_refuted, C63_nested_refuted, C63_twice_refuted, C63_tokens_refuted
* `SelectorProps.v`: C28_order_partial, C28_saturates_partial, C28_nested, C28_has_refuted, C29_match_order, C29_builds, C29_parse_order_partial, C29_nesting_prefix, C29_parse_order_refuted, C30_matching_partial, C30_list_partial, C30_nth_of_refuted, C31_nth_partial, C31_cache_partial, C31_overflow_refuted, C32_no_false_negative, C32_clear, C32_fast_reject_partial
* `ShortProps.v`: C22_shorthand_partial, C22_fallback_partial, C22_supports_partial, C22_pair_partial, C22_overflow_refuted, C22_author_fallback_refuted, C22_later_supports_refuted, C22_mixed_values_refuted
* `SideProps.v`: C20_supported_partial, C20_fallback_partial, C20_compiled_partial, C20_later_physical_refuted, C20_equal_inline_refuted, C20_important_refuted, C20_mixed_values_refuted, C20_inset_refuted
* `SubstProps.v`: C70_substituted_partial, C70_one_result, C70_nothing_left, C70_circular_refuted, C70_empty_refuted, C70_touching_refuted
* `SupportsProps.v`: C07_and, C07_or, C07_and_text, C07_or_text, C08_printed_meaning, C08_print, C08_parse_defined, C08_parse_meaning_partial, C08_roundtrip_partial, C08_prefix_stripped_refuted, C08_and_merged_refuted, C08_roundtrip_refuted, C49_name_kept_partial, C49_prefixed_all_refuted
* `SyntaxProps.v`: C72_syntax_partial, C72_accepted, C72_initial_value_partial, C72_refused_partial, C72_first_component_refuted, C72_rest_refuted, C72_newline_refuted, C72_dash_refuted, C72_keyword_refuted
* `TargetsProps.v`: C38_at_or_above_partial, C38_listed_partial, C38_none_partial, C38_wrap_refuted, C38_unknown_refuted, C40_compiled_partial, C40_monotone, C40_partially, C40_conflict_refuted, C40_selectors_refuted, C39_balanced, C39_implied_partial, C39_custom_refuted, C39_variable_refuted, C39_exact_refuted, C52_exact, C52_newer_partial, C52_newer_refuted, C53_understood_partial, C53_panic_refuted
* `TokProps.v`: C69_printed_partial, C69_raw_partial, C69_value_partial, C69_one_reading, C69_comment_refuted, C69_sign_refuted, C69_sign_ident_refuted, C69_point_refuted, C69_color_refuted, C69_unit_refuted, C69_small_refuted, C69_backslash_refuted, C69_raw_refuted
* `TransformBlockProps.v`: C61_others, C61_individual_partial, C61_unprefixed_partial, C61_prefixed_partial, C61_stacked_partial, C61_order_refuted, C61_twice_refuted, C61_dropped_refuted, C61_none_refuted, C61_prefix_refuted
* `UrangeProps.v`: C56_meaning, C56_shortest
* `ValueProps.v`: C21_rect_written, C21_rect_shortest, C21_size_written, C21_size_shortest, C21_rect_round_trip, C21_size_round_trip, C21_lengths, C21_border_radius, C45_position_round_trip, C45_parsed, C46_time_round_trip, C47_easing_round_trip, C48_number_text, C48_dimension_text_partial, C48_scientific_refuted
* `VisitorProps.v`: C42_map_vec, C42_map_smallvec, C42_map_rules, C42_terminates, C42_visits_once, C42_enter_exit_vec, C42_enter_exit_smallvec, C43_terminates, C43_replaces_once, C43_offers_all_partial, C43_offers_all_refuted, C43_simple

Theorems with axioms:

* `ColorConvertProps.v` C66_convert_partial: `ClassicalDedekindReals.sig_not_dec`, `ClassicalDedekindReals.sig_forall_dec`, `FunctionalExtensionality.functional_extensionality_dep`, `Classical_Prop.classic`
* `ColorConvertProps.v` C66_round_trip: `ClassicalDedekindReals.sig_not_dec`, `ClassicalDedekindReals.sig_forall_dec`, `FunctionalExtensionality.functional_extensionality_dep`, `Classical_Prop.classic`
* `ColorConvertProps.v` C66_round_trip_hsl: `ClassicalDedekindReals.sig_not_dec`, `ClassicalDedekindReals.sig_forall_dec`, `FunctionalExtensionality.functional_extensionality_dep`, `Classical_Prop.classic`
* `ColorConvertProps.v` C66_round_trip_hwb: `ClassicalDedekindReals.sig_not_dec`, `ClassicalDedekindReals.sig_forall_dec`, `FunctionalExtensionality.functional_extensionality_dep`, `Classical_Prop.classic`
* `ColorConvertProps.v` C66_round_trip_linear: `ClassicalDedekindReals.sig_not_dec`, `ClassicalDedekindReals.sig_forall_dec`, `FunctionalExtensionality.functional_extensionality_dep`, `Classical_Prop.classic`
* `ColorConvertProps.v` C66_curves: `ClassicalDedekindReals.sig_not_dec`, `ClassicalDedekindReals.sig_forall_dec`, `FunctionalExtensionality.functional_extensionality_dep`, `Classical_Prop.classic`
* `ColorConvertProps.v` C66_gamut: `ClassicalDedekindReals.sig_not_dec`, `ClassicalDedekindReals.sig_forall_dec`, `FunctionalExtensionality.functional_extensionality_dep`, `Classical_Prop.classic`
* `ColorConvertProps.v` C66_clip: `ClassicalDedekindReals.sig_forall_dec`, `FunctionalExtensionality.functional_extensionality_dep`
* `ColorConvertProps.v` C66_clip_same: `ClassicalDedekindReals.sig_forall_dec`, `FunctionalExtensionality.functional_extensionality_dep`
* `ColorConvertProps.v` C66_prophoto_refuted: `ClassicalDedekindReals.sig_not_dec`, `ClassicalDedekindReals.sig_forall_dec`, `FunctionalExtensionality.functional_extensionality_dep`, `Classical_Prop.classic`
* `ColorMixProps.v` C65_mix_partial: `ClassicalDedekindReals.sig_not_dec`, `ClassicalDedekindReals.sig_forall_dec`, `FunctionalExtensionality.functional_extensionality_dep`, `Classical_Prop.classic`
* `ColorMixProps.v` C65_unknown: `ClassicalDedekindReals.sig_not_dec`, `ClassicalDedekindReals.sig_forall_dec`, `FunctionalExtensionality.functional_extensionality_dep`, `Classical_Prop.classic`
* `ColorMixProps.v` C65_read: `ClassicalDedekindReals.sig_not_dec`, `ClassicalDedekindReals.sig_forall_dec`, `FunctionalExtensionality.functional_extensionality_dep`, `Classical_Prop.classic`
* `ColorMixProps.v` C65_read_only: `ClassicalDedekindReals.sig_not_dec`, `ClassicalDedekindReals.sig_forall_dec`, `FunctionalExtensionality.functional_extensionality_dep`, `Classical_Prop.classic`
* `ColorMixProps.v` C65_percentage_range_refuted: `ClassicalDedekindReals.sig_not_dec`, `ClassicalDedekindReals.sig_forall_dec`, `FunctionalExtensionality.functional_extensionality_dep`, `Classical_Prop.classic`
* `ColorMixProps.v` C65_transparent_refuted: `ClassicalDedekindReals.sig_not_dec`, `ClassicalDedekindReals.sig_forall_dec`, `FunctionalExtensionality.functional_extensionality_dep`, `Classical_Prop.classic`
* `ColorMixProps.v` C65_missing_refuted: `ClassicalDedekindReals.sig_not_dec`, `ClassicalDedekindReals.sig_forall_dec`, `FunctionalExtensionality.functional_extensionality_dep`, `Classical_Prop.classic`
* `ColorTextProps.v` C67_read_partial: `ClassicalDedekindReals.sig_not_dec`, `ClassicalDedekindReals.sig_forall_dec`, `FunctionalExtensionality.functional_extensionality_dep`, `Classical_Prop.classic`
* `ColorTextProps.v` C67_css_partial: `ClassicalDedekindReals.sig_not_dec`, `ClassicalDedekindReals.sig_forall_dec`, `FunctionalExtensionality.functional_extensionality_dep`, `Classical_Prop.classic`
* `ColorTextProps.v` C67_print_partial: `ClassicalDedekindReals.sig_not_dec`, `ClassicalDedekindReals.sig_forall_dec`, `FunctionalExtensionality.functional_extensionality_dep`, `Classical_Prop.classic`
* `ColorTextProps.v` C67_alpha_refuted: `ClassicalDedekindReals.sig_not_dec`, `ClassicalDedekindReals.sig_forall_dec`, `FunctionalExtensionality.functional_extensionality_dep`, `Classical_Prop.classic`
* `ColorTextProps.v` C67_hue_refuted: `ClassicalDedekindReals.sig_not_dec`, `ClassicalDedekindReals.sig_forall_dec`, `FunctionalExtensionality.functional_extensionality_dep`, `Classical_Prop.classic`
* `ColorTextProps.v` C67_nested_refuted: `ClassicalDedekindReals.sig_not_dec`, `ClassicalDedekindReals.sig_forall_dec`, `FunctionalExtensionality.functional_extensionality_dep`, `Classical_Prop.classic`
* `ColorTextProps.v` C67_old_refuted: `ClassicalDedekindReals.sig_not_dec`, `ClassicalDedekindReals.sig_forall_dec`, `FunctionalExtensionality.functional_extensionality_dep`, `Classical_Prop.classic`
* `ColorTextProps.v` C67_crash_refuted: `ClassicalDedekindReals.sig_not_dec`, `ClassicalDedekindReals.sig_forall_dec`, `FunctionalExtensionality.functional_extensionality_dep`, `Classical_Prop.classic`
* `MatrixProps.v` C60_matrix_partial: `ClassicalDedekindReals.sig_not_dec`, `ClassicalDedekindReals.sig_forall_dec`, `FunctionalExtensionality.functional_extensionality_dep`
* `MatrixProps.v` C60_perspective_refuted: `ClassicalDedekindReals.sig_not_dec`, `ClassicalDedekindReals.sig_forall_dec`, `FunctionalExtensionality.functional_extensionality_dep`
* `MatrixProps.v` C60_multiply: `ClassicalDedekindReals.sig_forall_dec`, `FunctionalExtensionality.functional_extensionality_dep`
* `MatrixProps.v` C60_effect: `ClassicalDedekindReals.sig_forall_dec`, `FunctionalExtensionality.functional_extensionality_dep`
* `MatrixProps.v` C60_inverse: `ClassicalDedekindReals.sig_forall_dec`, `FunctionalExtensionality.functional_extensionality_dep`
* `MatrixProps.v` C60_determinant: `ClassicalDedekindReals.sig_forall_dec`, `FunctionalExtensionality.functional_extensionality_dep`
* `MatrixProps.v` C60_transpose: `ClassicalDedekindReals.sig_forall_dec`, `FunctionalExtensionality.functional_extensionality_dep`
* `MatrixProps.v` C60_to_2d: `ClassicalDedekindReals.sig_forall_dec`, `FunctionalExtensionality.functional_extensionality_dep`
* `MatrixProps.v` C60_decompose_partial: `ClassicalDedekindReals.sig_not_dec`, `ClassicalDedekindReals.sig_forall_dec`, `FunctionalExtensionality.functional_extensionality_dep`, `Classical_Prop.classic`
* `MatrixProps.v` C60_decompose_order_refuted: `ClassicalDedekindReals.sig_not_dec`, `ClassicalDedekindReals.sig_forall_dec`, `FunctionalExtensionality.functional_extensionality_dep`, `Classical_Prop.classic`
* `MatrixProps.v` C60_decompose_skew_refuted: `ClassicalDedekindReals.sig_not_dec`, `ClassicalDedekindReals.sig_forall_dec`, `FunctionalExtensionality.functional_extensionality_dep`, `Classical_Prop.classic`
* `MatrixProps.v` C60_decompose_half_turn_refuted: `ClassicalDedekindReals.sig_not_dec`, `ClassicalDedekindReals.sig_forall_dec`, `FunctionalExtensionality.functional_extensionality_dep`, `Classical_Prop.classic`
* `TransformMoreProps.v` C59_list_read_partial: `ClassicalDedekindReals.sig_not_dec`, `ClassicalDedekindReals.sig_forall_dec`, `FunctionalExtensionality.functional_extensionality_dep`
* `TransformMoreProps.v` C59_as_function: `ClassicalDedekindReals.sig_not_dec`, `ClassicalDedekindReals.sig_forall_dec`, `FunctionalExtensionality.functional_extensionality_dep`
* `TransformProps.v` C59_kept_partial: `ClassicalDedekindReals.sig_not_dec`, `ClassicalDedekindReals.sig_forall_dec`, `FunctionalExtensionality.functional_extensionality_dep`
* `TransformProps.v` C59_read_partial: `ClassicalDedekindReals.sig_not_dec`, `ClassicalDedekindReals.sig_forall_dec`, `FunctionalExtensionality.functional_extensionality_dep`
* `TransformProps.v` C59_printed: `ClassicalDedekindReals.sig_not_dec`, `ClassicalDedekindReals.sig_forall_dec`, `FunctionalExtensionality.functional_extensionality_dep`
* `TransformProps.v` C59_translate: `ClassicalDedekindReals.sig_forall_dec`
* `TransformProps.v` C59_rotate: `ClassicalDedekindReals.sig_not_dec`, `ClassicalDedekindReals.sig_forall_dec`, `FunctionalExtensionality.functional_extensionality_dep`
* `TransformProps.v` C59_scale: `ClassicalDedekindReals.sig_forall_dec`, `FunctionalExtensionality.functional_extensionality_dep`
* `TransformProps.v` C59_perspective_none_refuted: `ClassicalDedekindReals.sig_not_dec`, `ClassicalDedekindReals.sig_forall_dec`, `FunctionalExtensionality.functional_extensionality_dep`
* `TransformProps.v` C59_negative_distance_refuted: `ClassicalDedekindReals.sig_not_dec`, `ClassicalDedekindReals.sig_forall_dec`, `FunctionalExtensionality.functional_extensionality_dep`
