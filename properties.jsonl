{"id": "C01", "title": "Media query serialization preserves meaning", "statement": "Printing any media query list obtained by parsing and parsing the printed text again yields a list that matches exactly the same environments as the original, both when range syntax is kept and when it is lowered to min-/max- features for older targets.", "quantifier": "all media query lists the parser can produce (any nesting of not/and/or and of range, boolean and plain features), all environments (viewport and feature values), all choices of target features to lower", "why_tests_cant": "queries nest without bound and parenthesisation mistakes only show for particular operator shapes; the environment is a continuum", "anchors": ["src/media_query.rs: MediaList::to_css, MediaQuery::to_css, MediaCondition::parse, operation_to_css, needs_parens, negate", "src/media_query.rs: QueryFeature::to_css, write_min_max"]}
{"id": "C02", "title": "Media list conjunction", "statement": "Combining two media lists with MediaList::and (nested @media, conditional @import) gives a list that matches an environment exactly when both lists match it, or reports that they cannot be combined and changes nothing.", "quantifier": "all pairs of media lists and all environments", "why_tests_cant": "pairs of unbounded lists with qualifiers, types and conditions; tests only sample a few combinations", "anchors": ["src/media_query.rs: MediaList::and, MediaQuery::and"]}
{"id": "C03", "title": "Media list disjunction", "statement": "Combining two media lists with MediaList::or (the same file imported twice under different media) gives a list that matches exactly when at least one of the lists matches.", "quantifier": "all pairs of media lists and all environments", "why_tests_cant": "unbounded lists and environments", "anchors": ["src/media_query.rs: MediaList::or"]}
{"id": "C04", "title": "Removed and unwrapped @media blocks never change the result", "statement": "If MediaList::always_matches returns true then the list matches every environment, and if never_matches returns true it matches none; so minification dropping an @media block, or a bundler skipping the wrapper, never changes which rules apply.", "quantifier": "all media lists, all environments", "why_tests_cant": "universal over environments", "anchors": ["src/media_query.rs: MediaList::always_matches, never_matches, MediaQuery::always_matches, never_matches", "src/rules/mod.rs: CssRuleList::minify (CssRule::Media)"]}
{"id": "C05", "title": "Range features lower to equivalent min/max features", "statement": "A range or interval media feature printed with min-/max- prefixes for targets without range syntax is true in exactly the environments in which the range is true, for every comparison operator and operand order, and the printed text contains no comparison operator. Strict comparisons are lowered to negated non-strict ones, without rounding.", "quantifier": "all comparison operators, operand orders, values and environments", "why_tests_cant": "the boundary values lie on a continuum", "anchors": ["src/media_query.rs: write_min_max, QueryFeature::to_css, MediaFeatureComparison::opposite, MediaFeatureComparison::negate"]}
{"id": "C06", "title": "Custom media substitution", "statement": "Replacing @custom-media references inside a media list with their definitions gives a list that matches exactly when the list, read with each reference evaluated as its definition, matches; cyclic definitions and unknown names are reported as errors and never loop.", "quantifier": "all custom-media environments (including cyclic ones) and all media lists", "why_tests_cant": "recursion through an arbitrary user-defined graph", "anchors": ["src/media_query.rs: MediaList::transform_custom_media, process_condition", "src/rules/custom_media.rs"]}
{"id": "C07", "title": "@supports conditions combine correctly", "statement": "SupportsCondition::and and ::or produce a condition that holds in a browser exactly when both (respectively at least one) operand holds.", "quantifier": "all pairs of supports conditions and all browsers (truth assignments of feature tests)", "why_tests_cant": "unbounded condition trees, all truth assignments", "anchors": ["src/rules/supports.rs: SupportsCondition::and, SupportsCondition::or", "src/bundler.rs: combine_supports"]}
{"id": "C08", "title": "@supports serialization preserves meaning", "statement": "Printing any parsed supports condition and parsing it again yields a condition with the same truth value in every browser.", "quantifier": "all parsed supports conditions, all truth assignments", "why_tests_cant": "unbounded nesting and operator shape", "anchors": ["src/rules/supports.rs: SupportsCondition::parse, parse_in_parens, needs_parens, to_css"]}
{"id": "C09", "title": "Every reachable file appears exactly once", "statement": "A successful bundle contains the rules of the entry file and of every file reachable from it through non-external imports exactly once, and of no other file.", "quantifier": "all import graphs (any number of files, diamonds, repeated imports, cycles)", "why_tests_cant": "graph-shaped input of unbounded size; fails only for particular cycles", "anchors": ["src/bundler.rs: Bundler::order, Bundler::inline, load_file"]}
{"id": "C10", "title": "Imported files precede their importer, in last-import order", "statement": "In the bundle the rules of an imported file come before the rules of the importing file, and the relative order of files is the order in which a browser, which lets the last occurrence of a repeated import win, would apply them.", "quantifier": "all acyclic import graphs", "why_tests_cant": "order bugs only appear for particular sharing patterns", "anchors": ["src/bundler.rs: Bundler::order, Bundler::inline"]}
{"id": "C11", "title": "Bundling terminates", "statement": "bundle() returns (a stylesheet or an error) for every import graph, including cyclic ones and files that compose from themselves.", "quantifier": "all import and composes graphs, including cyclic ones", "why_tests_cant": "non-termination cannot be observed by a finite test", "anchors": ["src/bundler.rs: load_file, Bundler::order, Bundler::inline"]}
{"id": "C12", "title": "Bundled import conditions", "statement": "Inlined rules of an imported file are wrapped so that they apply in exactly the environments where some import statement chain leading to the file applies (media, supports and layer).", "quantifier": "all acyclic import graphs with arbitrary conditions on the import statements; all environments", "why_tests_cant": "paths through the graph are exponentially many", "anchors": ["src/bundler.rs: load_file, combine_supports, inline"]}
{"id": "C13", "title": "Parallel loading is schedule independent", "statement": "Whatever order the parallel file loaders finish in, the bundle contains the same files under the same conditions.", "quantifier": "all interleavings of the loader tasks", "why_tests_cant": "schedules cannot be enumerated by tests", "anchors": ["src/bundler.rs: load_file (DashMap, rayon par_iter)"]}
{"id": "C14", "title": "Minifying a rule list preserves the cascade", "statement": "For every element and property, the winning declaration computed from the minified rule list equals the one computed from the original list.", "quantifier": "all rule lists of style rules (any length, selectors, declarations, importance), all elements and properties", "why_tests_cant": "unbounded lists; reordering bugs need specific intervening rules", "anchors": ["src/rules/mod.rs: CssRuleList::minify, merge_style_rules", "src/rules/style.rs: StyleRule::is_duplicate"]}
{"id": "C15", "title": "Minification preserves cascade layer order", "statement": "The order in which cascade layers are first declared is the same before and after minification.", "quantifier": "all rule lists with layer statements, layer blocks and conditional blocks", "why_tests_cant": "depends on arbitrary interleavings of layer names", "anchors": ["src/rules/mod.rs: CssRuleList::minify (CssRule::LayerBlock, LayerStatement)", "src/rules/layer.rs"]}
{"id": "C16", "title": "Later @keyframes / @property replacement", "statement": "When minification merges or drops @keyframes rules with equal names, the keyframes used for every animation name and vendor prefix are the same as before.", "quantifier": "all rule lists and names", "why_tests_cant": "depends on arbitrary interleavings", "anchors": ["src/rules/mod.rs: CssRuleList::minify (CssRule::Keyframes, CssRule::Property)"]}
{"id": "C17", "title": "set followed by get", "statement": "After DeclarationBlock::set(p, important), get of p's id returns p's value with that importance, and get of an unrelated property is unchanged.", "quantifier": "all declaration blocks and properties, including shorthands and longhands", "why_tests_cant": "blocks are unbounded histories of sets", "anchors": ["src/declaration.rs: DeclarationBlock::set, get", "src/macros.rs: impl_shorthand set_longhand, longhand"]}
{"id": "C18", "title": "remove followed by get", "statement": "After DeclarationBlock::remove(id), get(id) returns nothing and unrelated properties are unchanged.", "quantifier": "all declaration blocks and property ids", "why_tests_cant": "unbounded blocks", "anchors": ["src/declaration.rs: DeclarationBlock::remove"]}
{"id": "C19", "title": "Declaration block serialization keeps every declaration", "statement": "Printing a declaration block writes normal then important declarations, separated by semicolons, each exactly once and in order, and parsing the text again gives an equal block.", "quantifier": "all declaration blocks", "why_tests_cant": "unbounded blocks", "anchors": ["src/declaration.rs: DeclarationBlock::parse, to_css, to_css_block"]}
{"id": "C20", "title": "Box-side shorthand minification preserves used values", "statement": "Minifying any sequence of margin/padding/inset declarations (physical, logical, shorthand, unparsed) gives declarations with the same cascaded value for every physical and logical side in either direction.", "quantifier": "all declaration sequences, all sides, both writing directions", "why_tests_cant": "order-dependent state machine over unbounded sequences", "anchors": ["src/properties/margin_padding.rs: side_handler!"]}
{"id": "C21", "title": "Four-value and two-value shorthands round-trip", "statement": "Printing a Rect or Size2D value and parsing the output yields the same four (two) sides, and the printed form uses the fewest components.", "quantifier": "all component types with decidable equality and all values", "why_tests_cant": "parametric in the component type", "anchors": ["src/values/rect.rs: Rect::parse_with, to_css", "src/values/size.rs: Size2D"]}
{"id": "C22", "title": "Generic shorthand handlers preserve the cascade", "statement": "For properties minified by the generic shorthand handler (e.g. outline, list-style, overflow, flex-flow...), the cascaded value of every longhand after minification equals the one before, for any sequence of shorthand, longhand and unparsed declarations.", "quantifier": "all sequences of declarations of the shorthand and its longhands", "why_tests_cant": "order-dependent handler state", "anchors": ["src/macros.rs: shorthand_handler!, define_shorthand!"]}
{"id": "C23", "title": "CSS module pattern parse/print round-trip", "statement": "A naming pattern accepted by Pattern::parse, written with a given hash, path and local name, yields the pattern text with every placeholder substituted and everything else copied verbatim; malformed patterns are rejected.", "quantifier": "all pattern strings and substitutions", "why_tests_cant": "unbounded strings", "anchors": ["src/css_modules.rs: Pattern::parse, Pattern::write"]}
{"id": "C24", "title": "CSS module export map is accurate", "statement": "For every local name, the exported name is exactly the name written in the output CSS wherever the local name occurred, and every local or dashed name that is printed is exported or referenced.", "quantifier": "all sequences of name uses, references and composes", "why_tests_cant": "unbounded histories of name registrations", "anchors": ["src/css_modules.rs: CssModule::add_local, add_dashed, reference, reference_dashed, handle_composes", "src/printer.rs: write_ident, write_dashed_ident"]}
{"id": "C25", "title": "CSS module renaming is collision free", "statement": "Two different local names in the same file never get the same scoped name, and names from files with different hashes never collide when the pattern contains both [hash] and [local].", "quantifier": "all names and files", "why_tests_cant": "injectivity over all strings", "anchors": ["src/css_modules.rs: Pattern::write, hash"]}
{"id": "C26", "title": "Printer line and column tracking", "statement": "At every moment during printing the printer's line and column equal the position of the end of the text written so far, hence every source-map entry points at the text printed after it.", "quantifier": "all sequences of printer operations", "why_tests_cant": "histories of writes of unbounded length", "anchors": ["src/printer.rs: Printer::write_str, write_str_with_newlines, write_char, newline, add_mapping, to_css"]}
{"id": "C27", "title": "Minified and pretty output differ only in whitespace", "statement": "With the minify option on or off the printer emits the same sequence of non-whitespace text; and indentation after any balanced sequence of blocks returns to its initial value.", "quantifier": "all sequences of printer operations", "why_tests_cant": "histories of unbounded length", "anchors": ["src/printer.rs: whitespace, delim, newline, indent, dedent"]}
{"id": "C28", "title": "Selector specificity", "statement": "The specificity stored for a parsed selector compares two selectors exactly as the CSS specification's (a,b,c) triple does, as long as each count is below 1024, and saturates rather than overflowing into a higher component otherwise.", "quantifier": "all selectors (any number of components, nested lists)", "why_tests_cant": "unbounded component counts; nested lists", "anchors": ["selectors/builder.rs: specificity, Specificity, complex_selector_specificity"]}
{"id": "C29", "title": "Selector storage order", "statement": "Iterating a parsed selector in match order and in parse order yields the compounds the author wrote, from right to left and left to right respectively, with components inside a compound in source order.", "quantifier": "all complex selectors", "why_tests_cant": "unbounded selectors", "anchors": ["selectors/builder.rs: SelectorBuilder::build_with_specificity_and_flags, SelectorBuilderIter", "selectors/parser.rs: Selector::iter, iter_raw_parse_order_from"]}
{"id": "C30", "title": "Selector matching is correct", "statement": "matches_selector returns true for an element exactly when there is an assignment of elements to the compound selectors that satisfies every combinator, although the matcher skips backtracking with early-exit statuses.", "quantifier": "all element trees, all selectors with next-sibling, later-sibling, child and descendant combinators", "why_tests_cant": "backtracking over unbounded trees and selectors", "anchors": ["selectors/matching.rs: matches_complex_selector_internal, next_element_for_combinator"]}
{"id": "C31", "title": ":nth-child arithmetic", "statement": ":nth-child(An+B) and its variants match exactly the elements whose 1-based sibling index (from the start or end, over all or same-type siblings) equals An+B for some non-negative integer n; using the index cache never changes the answer.", "quantifier": "all 32-bit A and B, all sibling lists, all cache histories", "why_tests_cant": "32-bit arithmetic corner cases and cache histories", "anchors": ["selectors/matching.rs: matches_generic_nth_child, nth_child_index", "selectors/nth_index_cache.rs"]}
{"id": "C32", "title": "Ancestor bloom filter has no false negatives", "statement": "After any sequence of insert_hash and remove_hash in which each removed hash had been inserted, might_contain_hash returns true for every hash still in the filter, even when counters saturate; clear empties it; fast rejection by may_match never rejects a selector that could match.", "quantifier": "all operation histories and hashes", "why_tests_cant": "saturation appears only after hundreds of colliding insertions", "anchors": ["selectors/bloom.rs: CountingBloomFilter, BloomStorageU8, BloomStorageBool", "selectors/matching.rs: may_match"]}
{"id": "C33", "title": "Nesting expansion preserves matching", "statement": "A nested style rule printed for targets without nesting support matches the same elements as the nested rule, for any nesting depth and any selectors.", "quantifier": "all nesting depths, parent selector lists and nested selectors, all elements", "why_tests_cant": "unbounded nesting depth", "anchors": ["src/selector.rs: serialize_nesting, serialize_selector", "src/rules/style.rs: StyleRule::to_css", "src/rules/nesting.rs"]}
{"id": "C34", "title": "Unused symbol removal only drops dead selectors", "statement": "A selector is removed because of unused symbols only if it requires an element carrying an unused class or id; hence removal never changes styling of documents that do not use these symbols.", "quantifier": "all selectors, all symbol sets, all documents", "why_tests_cant": "quantifies over all documents", "anchors": ["src/selector.rs: is_unused", "src/rules/mod.rs, src/rules/style.rs: minify"]}
{"id": "C35", "title": "calc() simplification preserves value", "statement": "The expression produced by parsing a math function (calc, min, max, clamp, sums and products) evaluates to the same number as the expression as written, for every value of the units, up to floating point rounding.", "quantifier": "all expression trees and all unit valuations", "why_tests_cant": "unbounded expression trees, continuum of valuations", "anchors": ["src/values/calc.rs: Calc::parse_sum, parse_product, parse_value, reduce_args, Mul, add"]}
{"id": "C36", "title": "calc() serialization preserves value", "statement": "Printing a simplified math expression and reading the text with CSS precedence rules gives an expression with the same value.", "quantifier": "all calc trees the parser can produce", "why_tests_cant": "precedence mistakes depend on tree shape", "anchors": ["src/values/calc.rs: ToCss for Calc, MathFunction"]}
{"id": "C37", "title": "Hex colour compression is exact", "statement": "The shortest hex form printed for an RGBA colour parses back to the same four channel bytes.", "quantifier": "all 2^32 colours", "why_tests_cant": "exhaustive over 2^32 values", "anchors": ["src/values/color.rs: CssColor::to_css, compact_hex, expand_hex"]}
{"id": "C38", "title": "Browser list to targets takes the minimum version", "statement": "Browsers::from_distribs keeps for each browser the lowest version in the list, so every listed browser version is at or above the target.", "quantifier": "all browser lists", "why_tests_cant": "unbounded lists", "anchors": ["src/targets.rs: Browsers::from_distribs, parse_version"]}
{"id": "C39", "title": "Supports scopes are balanced", "statement": "The features a target set considers supported inside an @supports block are exactly those implied by the enclosing conditions, and leaving the block restores the previous set, for any nesting.", "quantifier": "all sequences of nested enter/exit", "why_tests_cant": "histories of unbounded nesting", "anchors": ["src/targets.rs: TargetsWithSupportsScope::enter_supports, exit_supports"]}
{"id": "C40", "title": "Feature include/exclude overrides", "statement": "A feature is compiled exactly when it is not excluded and it is included or some target browser lacks it; adding browsers or lowering versions never turns compilation off.", "quantifier": "all target sets and features", "why_tests_cant": "all browser version combinations", "anchors": ["src/targets.rs: Targets::should_compile", "src/compat.rs: Feature::is_compatible"]}
{"id": "C41", "title": "Vendor prefix merging keeps the winning value", "statement": "Merging repeated declarations of one prefixed property keeps, for every vendor prefix, the value of the last declaration carrying that prefix.", "quantifier": "all sequences of prefixed declarations", "why_tests_cant": "order-dependent handler state", "anchors": ["src/properties/prefix_handler.rs: define_prefixes!", "src/vendor_prefix.rs"]}
{"id": "C42", "title": "Visitor list mapping", "statement": "Visiting a list with a visitor that may delete, keep, replace or expand each item yields the concatenation, in order, of the results for each original item; each original item is visited exactly once and results are not revisited; the traversal terminates.", "quantifier": "all lists and visitor functions", "why_tests_cant": "in-place index arithmetic over all histories", "anchors": ["napi/src/transformer.rs: visit_list, map"]}
{"id": "C43", "title": "Composed visitors see every value", "statement": "With composeVisitors, every value that reaches the end of the composition has been offered to every visitor that did not itself produce it or one of its ancestors, and the composition terminates.", "quantifier": "all visitor lists and functions", "why_tests_cant": "behaviour depends on arbitrary user functions", "anchors": ["node/composeVisitors.js: createArrayVisitor"]}
{"id": "C44", "title": "Prefixed resolution queries keep the meaning", "statement": "Adding prefixed device-pixel-ratio queries next to resolution queries keeps every original query and does not change which environments match, in every browser that gives the prefixed feature, if it knows it, the value of resolution; and a browser that only knows the prefixed feature matches whenever one that knows resolution would.", "quantifier": "all media query lists, prefix sets and environments", "why_tests_cant": "the rewritten list mixes original and generated queries; the set of environments is infinite", "anchors": ["src/media_query.rs: MediaList::transform_resolution, MediaQuery::transform_resolution, MediaCondition::transform_resolution"]}
{"id": "C45", "title": "Positions round-trip", "statement": "Printing a parsed <position> (minified or not) and parsing the output gives a position that denotes the same point, for every size of the area, every unit size and every calc() value.", "quantifier": "all positions, all following text, all areas", "why_tests_cant": "many printing shortcuts, each valid only for some combinations of keywords and offsets; area sizes are infinite", "anchors": ["src/values/position.rs: Position::parse, Position::to_css, PositionComponent"]}
{"id": "C46", "title": "Times keep their duration", "statement": "Printing a time, possibly in the other unit, and parsing the output gives the same duration.", "quantifier": "all times", "why_tests_cant": "infinite domain", "anchors": ["src/values/time.rs: Time::parse, Time::to_css"]}
{"id": "C47", "title": "Easing functions keep their curve", "statement": "Printing an easing function, possibly as a keyword, and parsing the output gives the same curve.", "quantifier": "all easing functions", "why_tests_cant": "infinite domain", "anchors": ["src/values/easing.rs: EasingFunction::parse, EasingFunction::to_css, StepPosition"]}
{"id": "C48", "title": "Dropping leading zeros keeps numbers", "statement": "The text printed for a non-zero number, dimension or percentage of small absolute value denotes the same number and leaves the same unit.", "quantifier": "all texts an external number serializer may produce for the value", "why_tests_cant": "texts are unbounded, including scientific notation", "anchors": ["src/values/number.rs: CSSNumber::to_css", "src/values/length.rs: serialize_dimension", "src/values/percentage.rs: Percentage::to_css"]}
{"id": "C49", "title": "Property names survive parsing and printing", "statement": "Reading a property name into a property id and printing the id gives the same name up to ASCII case, for known, prefixed, unknown and custom names.", "quantifier": "all property names", "why_tests_cant": "infinite domain of names against a table of 349 properties", "anchors": ["src/properties/mod.rs: define_properties!, PropertyId::from, from_name_and_prefix, to_css", "src/vendor_prefix.rs: VendorPrefix"]}
{"id": "C50", "title": "Printed identifiers read back as the same name", "statement": "Whatever characters a class, id, keyframes, counter style, grid, container or custom property name has, the text printed for it is read by a CSS parser as one identifier with exactly that name, whatever non-name text follows.", "quantifier": "all names and all following texts", "why_tests_cant": "escaping must be right for every string", "anchors": ["src/printer.rs: write_ident, write_dashed_ident", "src/values/ident.rs: CustomIdent::to_css, DashedIdent::to_css", "src/rules/keyframes.rs: KeyframesName::to_css"]}
{"id": "C51", "title": "Properties with colour fallbacks keep their winning value", "statement": "Minifying a block of color, text-shadow, filter, backdrop-filter, fill, stroke, caret and caret-color declarations gives every browser the same value of each of these properties as the block as it was written: the last declaration whose value the browser knows.", "quantifier": "all sequences of declarations, all sets of values a browser knows, all targets", "why_tests_cant": "the handler replaces declarations in place, so each order of old and new values and of overlapping properties behaves differently", "anchors": ["src/properties/prefix_handler.rs: define_fallbacks!, FallbackHandler", "src/targets.rs: Targets::prefixes"]}
{"id": "C52", "title": "Vendor prefixes cover the targets", "statement": "The vendor prefixes chosen for a feature are exactly those that some target version needs, besides the unprefixed form; and every browser version at or above a target finds a form that it knows.", "quantifier": "all target sets, all rows of the prefix table, all newer versions", "why_tests_cant": "all browser version combinations against a table of 75 rows", "anchors": ["src/prefixes.rs: Feature::prefixes_for", "src/targets.rs: Targets::prefixes"]}
{"id": "C53", "title": "Colour fallbacks reach every target", "statement": "For every colour and every set of targets the fallbacks and the final colour are computed without a panic, and every version of every target understands one of the colours that are printed.", "quantifier": "all colours, nested light-dark(), all target sets, all newer versions", "why_tests_cant": "the set of fallbacks depends on five support tables, the kind of colour and nesting", "anchors": ["src/values/color.rs: CssColor::get_possible_fallbacks, get_necessary_fallbacks, get_fallbacks, to_rgb, to_p3, to_lab", "src/compat.rs"]}
{"id": "C54", "title": "Well-formed math functions are accepted", "statement": "Parsing a math function whose operands fit together and that has a value of the wanted type finishes without a panic and accepts it, however it is nested.", "quantifier": "all expressions of sums, products and math functions over lengths, percentages, times and angles", "why_tests_cant": "nesting is unbounded, and the additions of mixed units call each other recursively", "anchors": ["src/values/calc.rs: Calc::parse_with, Calc::add", "src/values/percentage.rs: Percentage::parse, DimensionPercentage::add_recursive", "src/values/length.rs: Length::parse, try_add"]}
{"id": "C55", "title": "Minifying a declaration block keeps what every property is given", "statement": "For every declaration block, with normal and important declarations in any order and mixture, and whatever blocks were minified before it, the minified block gives each property (box sides, shorthands, prefixed properties, properties that the minifier does not know, direction, unicode-bidi, custom properties) the same value as the block as it was written, and all: resets the same properties.", "quantifier": "all blocks, all mixtures of properties, all histories of earlier blocks, all targets", "why_tests_cant": "handlers share one list of declarations and keep state between blocks, so declarations of one property can disturb those of any other", "anchors": ["src/declaration.rs: DeclarationBlock::minify, DeclarationHandler::handle_property, handle_custom_property, handle_all, finalize", "src/context.rs: PropertyHandlerContext", "src/properties/prefix_handler.rs", "src/properties/margin_padding.rs", "src/macros.rs: shorthand_handler!"]}
{"id": "C56", "title": "unicode-range keeps its code points", "statement": "The text printed for a range of code points stands for exactly this range, with wildcards or not, and no shorter text does.", "quantifier": "all ranges up to U+10FFFF, all texts of the urange syntax", "why_tests_cant": "six hexadecimal digits on both ends, and wildcards apply only at certain alignments", "anchors": ["src/rules/font_face.rs: UnicodeRange::to_css"]}
{"id": "C57", "title": "Position values keep their place", "statement": "Every position value, with one to four components in any order that CSS allows, is accepted, and what is printed for it is a position at the same place in an area of any size; no value is added, and the three-value syntax is only printed for itself.", "quantifier": "all positions, all areas, all lengths and percentages", "why_tests_cant": "the shortening rules for the two axes interact, over unbounded values", "anchors": ["src/values/position.rs: Position::parse, Position::to_css, PositionComponent, HorizontalPositionKeyword, VerticalPositionKeyword"]}
{"id": "C58", "title": "The animation shorthand keeps all longhands", "statement": "Every value of the animation shorthand is read with the longhand values that CSS Animations prescribes, and the value printed for it gives every longhand the same value, whatever the name of the animation is.", "quantifier": "all component lists in all orders, all names, all numbers", "why_tests_cant": "a name can be any identifier, also a keyword of another longhand in any letter case", "anchors": ["src/properties/animation.rs: Animation::parse, Animation::to_css, AnimationName", "src/values/easing.rs: EasingFunction::parse, to_css, is_ident, is_ease"]}
{"id": "C59", "title": "Transform values keep their effect", "statement": "Every value of transform, translate, rotate and scale is accepted, and what is printed for it, minified or not, is a value of the property that moves every point of every box to the same place; so is what is printed for lists of functions that were built by a program.", "quantifier": "all transform functions, all lists of them, all numbers, angles and lengths, all boxes and points", "why_tests_cant": "each shortening rule holds only for certain arguments, over a continuum of values in all combinations", "anchors": ["src/properties/transform.rs: Transform::parse, Transform::to_css, TransformList::parse, to_css, Translate, Rotate, Scale", "src/values/angle.rs: Angle::parse_with_unitless_zero, to_css, to_css_with_unitless_zero"]}
{"id": "C60", "title": "Matrices of transforms are right", "statement": "The matrix that the API computes for a transform list moves every point like the list; the product composes effects, the inverse is two-sided and exists exactly for matrices that can be undone, determinant and transpose follow their laws, exactly the two-dimensional matrices convert to matrix(), and the decomposition of a matrix has the effect of the matrix.", "quantifier": "all transform lists, all matrices, all points", "why_tests_cant": "formulas over sixteen real entries, and cases that depend on signs and angles", "anchors": ["src/properties/transform.rs: Matrix3d, TransformList::to_matrix, Transform::to_matrix, Matrix3d::inverse, determinant, multiply, transpose, to_matrix2d, decompose"]}
{"id": "C61", "title": "Blocks with transform properties keep their effect", "statement": "Minifying a block with transform, translate, rotate and scale declarations, prefixed or not, keeps the effect that the block has on the element, and the values that each property gets under each prefix.", "quantifier": "all sequences of declarations, all prefixes, all targets", "why_tests_cant": "the handler merges properties that CSS keeps apart, so every order of declarations behaves differently", "anchors": ["src/properties/transform.rs: TransformHandler, Translate::to_transform, Rotate::to_transform, Scale::to_transform"]}
{"id": "C62", "title": "An+B keeps its step and offset", "statement": "The argument of :nth-child() and the like is read with the step and offset that CSS Syntax gives it, in every spelling, and what is printed for a step and an offset is read back as these.", "quantifier": "all texts of the An+B grammar, all 32-bit steps and offsets", "why_tests_cant": "the grammar is spread over token kinds (-n-3 is one identifier, -n- 3 three tokens, -2n+5 two) and numbers are clamped, so the spellings and values are unbounded", "anchors": ["selectors/parser.rs: NthSelectorData, write_affine", "src/selector.rs: serialize_nth", "cssparser: parse_nth, Tokenizer (external)"]}
{"id": "C63", "title": "Selectors that are printed are read back with the same meaning", "statement": "For every selector list that the parser accepts, in a style rule or a nested one, the text that is printed, minified or not, is accepted again, and each selector matches the same elements in every document and has the same specificity.", "quantifier": "all token sequences that the parser accepts, all documents, all printer options", "why_tests_cant": "selectors nest without bound, and what may be left out (*, :is(), :scope) depends on everything around it", "anchors": ["selectors/parser.rs: parse_selector, parse_relative_selector, parse_compound_selector, parse_one_simple_selector, SelectorList::parse_with_state, SelectorList::parse_relative_with_state, parse_type_selector, parse_attribute_selector, parse_functional_pseudo_class, parse_nth_pseudo_class", "src/selector.rs: serialize_selector, serialize_selector_list, serialize_component, serialize_pseudo_class, serialize_pseudo_element, serialize_combinator, should_unwrap_is"]}
{"id": "C64", "title": "Selector text is read as what the standards say it stands for", "statement": "A list of selectors that is written as Selectors 4, CSS Scoping, CSS Nesting and CSS View Transitions allow is accepted and read as the selectors it stands for, whatever the letter case of keywords and the white space; invalid selectors are dropped from the arguments of :is() and :where() and nothing else is; a selector of a nested rule is relative to the parent unless & stands in it.", "quantifier": "every token sequence that the grammar derives, all options (nesting, deep combinators), all nestings of functional pseudo classes", "why_tests_cant": "selectors nest without bound and the parser carries a state from part to part; a unit test shows one text, not that no combination of parts is misread", "anchors": ["selectors/parser.rs: SelectorList::parse, parse_selector, parse_relative_selector, parse_compound_selector, parse_one_simple_selector, parse_attribute_selector, parse_functional_pseudo_class, parse_nth_pseudo_class", "src/selector.rs: SelectorParser::parse_non_ts_pseudo_class, parse_non_ts_functional_pseudo_class, parse_pseudo_element, parse_functional_pseudo_element", "src/parser.rs: QualifiedRuleParser::parse_prelude"]}
{"id": "C65", "title": "color-mix() is replaced by the colour it stands for", "statement": "A color-mix() of two known colours is replaced by the colour that CSS Color 5 defines: percentages default and are normalised, and a sum below 100% lowers the alpha; the colours are brought into the named space; missing components are taken from the other colour; hues go around the circle in the direction that the method names; components other than the hue are weighted with alpha. A mix with colours whose value is not known is kept.", "quantifier": "all ten colour spaces for mixing, all hue methods, all percentages, all colours including light-dark() of any depth", "why_tests_cant": "colours, percentages and hues are continuous; a unit test shows a few mixes, not that no hue or percentage takes the wrong turn", "anchors": ["src/values/color.rs: parse_color_mix, CssColor::interpolate, Interpolate, interpolate_rectangular, interpolate_polar, HueInterpolationMethod::interpolate, fill_missing_components, adjust_powerless_components"]}
{"id": "C66", "title": "Converting a colour to another colour space keeps the colour", "statement": "A colour that is converted between any two colour spaces stands for the same point of XYZ, with the transfer curves, primaries, white points, chromatic adaptation, Lab and Oklab formulas and hue formulas of CSS Color 4, and keeps its alpha. Conversions that lose nothing can be undone. A colour that does not fit the space is mapped into it with the lightness and hue of Oklch kept and the chroma lowered, or clipped where the difference is not noticeable.", "quantifier": "all pairs of the fifteen colour spaces, all component values", "why_tests_cant": "components are continuous and there are 210 pairs of spaces; a unit test pins a few rounded values and cannot show that the curves, matrices and hue sectors fit together everywhere", "anchors": ["src/values/color.rs: impl From<..> for SRGB, SRGBLinear, P3, A98, ProPhoto, Rec2020, XYZd50, XYZd65, LAB, LCH, OKLAB, OKLCH, HSL, HWB, map_gamut, ColorGamut::in_gamut, ColorGamut::clip, rectangular_to_polar, polar_to_rectangular"]}
{"id": "C67", "title": "Colour functions are read as CSS Color says and printed so that they are read back", "statement": "rgb(), hsl(), hwb(), lab(), lch(), oklab(), oklch(), color(), light-dark() and color-mix(), with numbers, percentages, angles, none and calc(), in the old and the new notation, and relative to another colour, are read as the colour that CSS Color 4 and 5 give them; anything else is rejected, and nothing crashes. A colour that was read is printed as a text that CSS and the parser read as the same colour.", "quantifier": "all token trees of functions, all component values", "why_tests_cant": "functions nest without bound (an origin colour is itself any colour), components are continuous, and each function has its own clamping, rounding, percentage bases and keywords", "anchors": ["src/values/color.rs: CssColor::parse, parse_color_function, parse_relative, parse_lab, parse_lch, parse_hsl_hwb, parse_rgb, parse_predefined, parse_alpha, RelativeComponentParser, ComponentParser, CssColor::to_css, write_components, write_predefined", "src/values/percentage.rs: Percentage::parse"]}
{"id": "C68", "title": "Borders that are merged into shorthands are drawn as the declarations say", "statement": "After minification each side of a box has the border width, style and colour that the block gave it before, and the border image that it gave it, whatever mix of border, border-width, border-top, border-inline, border-inline-start-color and the like was declared, in which order, with unparsed values and !important among them, and whatever other rules declare. Where targets do not know logical borders, the block and the rules that are added for the direction together do the same.", "quantifier": "all lists of declarations of border properties, all values, all writing modes, all targets, all values from other rules", "why_tests_cant": "there are 8 sides with 3 properties and 6 kinds of shorthands, and the handler chooses between more than 40 shapes of output from which of the values are equal; a wrong choice shows only for a certain pattern of equal and different values", "anchors": ["src/properties/border.rs: BorderHandler::handle_property, BorderHandler::flush, BorderHandler::flush_unparsed, BorderShorthand", "src/properties/border_image.rs: BorderImageHandler::handle_property, BorderImageHandler::flush", "src/context.rs: PropertyHandlerContext::add_logical_rule"]}
{"id": "C69", "title": "Values that are lists of tokens are printed as the same tokens", "statement": "A value that is not typed (of a custom property, of a property that is not known, or one with var() or env()) is printed, minified or not, as a text that a browser tokenizes into the tokens of the source: same names, strings, numbers, units, brackets and functions in the same order, colours and lengths as their printers write them. Only the amount of white space, white space at the ends, comments and the quotes of addresses may differ. The same holds for the preludes and blocks of rules that are not known.", "quantifier": "all lists of tokens, nested to any depth up to the limit, all names, strings and numbers, all texts that follow", "why_tests_cant": "whether two neighbouring tokens run together depends on every pair of kinds of tokens and on the escapes, leading zeros, signs and units printed; tests cover a few pairs", "anchors": ["src/properties/custom.rs: TokenList::parse, TokenList::parse_into, TokenList::to_css, TokenList::to_css_raw, Token::to_css, Variable, EnvironmentVariable, Function", "src/values/number.rs: CSSNumber::to_css", "src/values/length.rs: serialize_dimension", "src/values/url.rs: Url::to_css"]}
{"id": "C70", "title": "Variables are substituted as CSS says", "statement": "substitute_variables replaces each var() in a value, also in arguments, fallbacks and values of other variables, by the value of the variable, or by the fallback if the variable has no value, and leaves it if there is neither. It ends for all tables of variables.", "quantifier": "all tables of variables, all values, nested to any depth", "why_tests_cant": "the replacement is done in place while the list is walked, with a set that guards against circular references and is cleared on the way; whether it ends depends on the graph of references", "anchors": ["src/properties/custom.rs: TokenList::substitute_variables, VarInliner::visit_token_list, UnparsedProperty::substitute_variables"]}
{"id": "C71", "title": "Grid declarations, merged into shorthands, give the same grid", "statement": "After parsing, merging and printing, a block of grid declarations (grid, grid-template, grid-template-rows/-columns/-areas, grid-auto-rows/-columns/-flow, grid-area, grid-row, grid-column and their -start/-end) is valid CSS and gives every longhand the value the source block gave it: track sizes, line names, named areas, the flow, and the lines of items.", "quantifier": "all blocks, values of any length, repeat() and minmax() included, minified or not", "why_tests_cant": "the shorthands interleave strings, line names and sizes, and are only chosen for some combinations of values; areas are padded with rows, names are merged, auto sizes and lines are left out", "anchors": ["src/properties/grid.rs: TrackSizing, TrackList, TrackRepeat, GridTemplateAreas, GridTemplate, Grid, GridAutoFlow, GridLine, GridRow, GridColumn, GridArea, GridHandler"]}
{"id": "C72", "title": "Registered properties keep their syntax and initial value", "statement": "For an @property rule, SyntaxString reads every valid syntax string as CSS does, prints a valid string with the same meaning, and refuses invalid ones. The initial value is matched as a whole against the first component of the syntax that fits it, is printed as the same value, and the rule is refused if no component fits.", "quantifier": "all syntax strings, with any number of components and any white space, all values", "why_tests_cant": "alternatives are tried in order and each parser only reads a prefix; whether the right one is chosen depends on every earlier alternative", "anchors": ["src/values/syntax.rs: SyntaxString, SyntaxComponent, SyntaxComponentKind, Multiplier, ParsedComponent", "src/rules/property.rs: PropertyRule::parse, PropertyRule::to_css"]}
{"id": "C73", "title": "Flex declarations keep their meaning when they are merged", "statement": "The shorthands flex and flex-flow are read as CSS reads them and printed as values that CSS reads as the same. A block of flex declarations, prefixed or not, is merged into declarations that give every browser, whatever prefixes it knows, the same value for each longhand.", "quantifier": "all values of the shorthands, all blocks of flex declarations in any order and with any prefixes, all sets of prefixes a browser knows, all targets", "why_tests_cant": "which declarations are merged depends on the values and prefixes of all earlier ones, and a zero basis is only told from a factor by its place", "anchors": ["src/properties/flex.rs: Flex, FlexFlow, FlexHandler", "src/targets.rs: Targets::prefixes"]}
{"id": "C74", "title": "Declarations of position keep their effect", "statement": "The keywords of position are read as CSS reads them and printed as the same. A block with any declarations of position, with sticky under any prefix, has the same effect after it is merged, in every browser, whether it knows sticky, -webkit-sticky, both or neither.", "quantifier": "all blocks of declarations of position, all browsers, all targets", "why_tests_cant": "the handler keeps one value for the whole block; what is lost depends on the order of all declarations and on the browser", "anchors": ["src/properties/position.rs: Position, PositionHandler", "src/targets.rs: Targets::prefixes"]}
