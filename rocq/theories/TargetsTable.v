(** * The tables of src/compat.rs and src/prefixes.rs.  Generated from the source, row by row. *)
From Coq Require Import List String NArith.
Import ListNotations.
Local Open Scope N_scope.
Local Open Scope string_scope.

(** targets.rs:29-39: the fields of [Browsers] *)
Inductive browser := Android | Chrome | Edge | Firefox | IE | IosSaf | Opera | Safari | Samsung.
(** vendor_prefix.rs:12-34 *)
Inductive prefix := NoPrefix | WebKit | Moz | Ms | O.

(** compat.rs:233-5731, in the order of the source: the browsers that are tested for a group of features.
    [Some v]: versions below [v] lack it; [None]: all versions lack it. *)
Definition compat_table : list (list string * list (browser * option N)) :=
[
  (["Selectors2"],
   [(IE, Some 458752); (Edge, Some 786432); (Firefox, Some 131072); (Chrome, Some 262144); (Safari, Some 196864); (Opera, Some 589824); (IosSaf, Some 197120); (Android, Some 131328); (Samsung, Some 262144)]);
  (["Selectors3"],
   [(IE, Some 589824); (Edge, Some 786432); (Firefox, Some 197888); (Chrome, Some 262144); (Safari, Some 197120); (Opera, Some 591104); (IosSaf, Some 197120); (Android, Some 131328); (Samsung, Some 262144)]);
  (["Gencontent"; "FirstLine"],
   [(IE, Some 589824); (Edge, Some 786432); (Firefox, Some 131072); (Chrome, Some 262144); (Safari, Some 196864); (Opera, Some 589824); (IosSaf, Some 197120); (Android, Some 131328); (Samsung, Some 262144)]);
  (["FirstLetter"],
   [(IE, Some 589824); (Edge, Some 786432); (Firefox, Some 197888); (Chrome, Some 589824); (Safari, Some 327936); (Opera, Some 722432); (IosSaf, Some 327680); (Android, Some 196608); (Samsung, Some 262144)]);
  (["InOutOfRange"],
   [(Edge, Some 5177344); (Firefox, Some 3276800); (Chrome, Some 3473408); (Safari, Some 655616); (Opera, Some 2621440); (IosSaf, Some 656128); (Android, Some 9371648); (Samsung, Some 327680); (IE, None)]);
  (["FormValidation"],
   [(IE, Some 655360); (Edge, Some 786432); (Firefox, Some 262144); (Chrome, Some 655360); (Safari, Some 655616); (Opera, Some 655360); (IosSaf, Some 656128); (Android, Some 263171); (Samsung, Some 262144)]);
  (["AnyLink"],
   [(Edge, Some 5177344); (Firefox, Some 3276800); (Chrome, Some 4259840); (Safari, Some 589824); (Opera, Some 3407872); (IosSaf, Some 589824); (Android, Some 9371648); (Samsung, Some 590336); (IE, None)]);
  (["DefaultPseudo"],
   [(Edge, Some 5177344); (Firefox, Some 262144); (Chrome, Some 3342336); (Safari, Some 655616); (Opera, Some 2490368); (IosSaf, Some 656128); (Android, Some 9371648); (Samsung, Some 327680); (IE, None)]);
  (["DirSelector"],
   [(Edge, Some 7864320); (Firefox, Some 3211264); (Chrome, Some 7864320); (Safari, Some 1049600); (Opera, Some 6946816); (IosSaf, Some 1049600); (Android, Some 9371648); (Samsung, Some 1638400); (IE, None)]);
  (["FocusWithin"],
   [(Edge, Some 5177344); (Firefox, Some 3407872); (Chrome, Some 3932160); (Safari, Some 655616); (Opera, Some 3080192); (IosSaf, Some 656128); (Android, Some 9371648); (Samsung, Some 524800); (IE, None)]);
  (["FocusVisible"],
   [(Edge, Some 5636096); (Firefox, Some 5570560); (Chrome, Some 5636096); (Safari, Some 984064); (Opera, Some 4718592); (IosSaf, Some 984064); (Android, Some 9371648); (Samsung, Some 917504); (IE, None)]);
  (["IndeterminatePseudo"],
   [(Edge, Some 5177344); (Firefox, Some 3342336); (Chrome, Some 2555904); (Safari, Some 655616); (Opera, Some 1703936); (IosSaf, Some 656128); (Android, Some 9371648); (Samsung, Some 262144); (IE, None)]);
  (["IsSelector"],
   [(Edge, Some 5767168); (Firefox, Some 5111808); (Chrome, Some 5767168); (Safari, Some 917504); (Opera, Some 4915200); (IosSaf, Some 917504); (Android, Some 9371648); (Samsung, Some 983040); (IE, None)]);
  (["OptionalPseudo"],
   [(IE, Some 655360); (Edge, Some 786432); (Firefox, Some 262144); (Chrome, Some 983040); (Safari, Some 327680); (Opera, Some 983040); (IosSaf, Some 327680); (Android, Some 131840); (Samsung, Some 262144)]);
  (["PlaceholderShown"],
   [(Edge, Some 5177344); (Firefox, Some 3342336); (Chrome, Some 3080192); (Safari, Some 589824); (Opera, Some 2228224); (IosSaf, Some 589824); (Android, Some 9371648); (Samsung, Some 327680); (IE, None)]);
  (["Dialog"],
   [(Edge, Some 5177344); (Firefox, Some 6422528); (Chrome, Some 2424832); (Safari, Some 984064); (Opera, Some 1572864); (IosSaf, Some 984064); (Android, Some 9371648); (Samsung, Some 262144); (IE, None)]);
  (["Fullscreen"],
   [(Edge, Some 5177344); (Firefox, Some 4194304); (Chrome, Some 4653056); (Safari, Some 1049600); (Opera, Some 786688); (Samsung, Some 655616); (Android, None); (IE, None); (IosSaf, None)]);
  (["MarkerPseudo"],
   [(Edge, Some 5636096); (Firefox, Some 4456448); (Chrome, Some 5636096); (Opera, Some 4718592); (Android, Some 9371648); (Samsung, Some 917504); (IE, None); (IosSaf, None); (Safari, None)]);
  (["Placeholder"],
   [(Edge, Some 5177344); (Firefox, Some 3342336); (Chrome, Some 3735552); (Safari, Some 655616); (Opera, Some 2883584); (IosSaf, Some 656128); (Android, Some 9371648); (Samsung, Some 459264); (IE, None)]);
  (["Selection"],
   [(IE, Some 589824); (Edge, Some 786432); (Firefox, Some 4063232); (Chrome, Some 262144); (Safari, Some 196864); (Opera, Some 591104); (Android, Some 263168); (Samsung, Some 262144); (IosSaf, None)]);
  (["CaseInsensitive"],
   [(Edge, Some 5177344); (Firefox, Some 3080192); (Chrome, Some 3211264); (Safari, Some 589824); (Opera, Some 2359296); (IosSaf, Some 589824); (Android, Some 9371648); (Samsung, Some 327680); (IE, None)]);
  (["ReadOnlyWrite"],
   [(Edge, Some 851968); (Firefox, Some 5111808); (Chrome, Some 2359296); (Safari, Some 589824); (Opera, Some 1507328); (IosSaf, Some 589824); (Android, Some 9371648); (Samsung, Some 262144); (IE, None)]);
  (["Autofill"],
   [(Chrome, Some 7208960); (Edge, Some 7208960); (Firefox, Some 5636096); (Opera, Some 6291456); (Safari, Some 983040); (IosSaf, Some 983040); (Samsung, Some 1376256); (Android, Some 9371648); (IE, None)]);
  (["Namespaces"],
   [(IE, Some 589824); (Edge, Some 786432); (Firefox, Some 131072); (Chrome, Some 262144); (Safari, Some 262144); (Opera, Some 589824); (IosSaf, Some 262656); (Android, Some 131328); (Samsung, Some 262144)]);
  (["Shadowdomv1"],
   [(Edge, Some 5177344); (Firefox, Some 4128768); (Chrome, Some 3473408); (Safari, Some 655360); (Opera, Some 2621440); (IosSaf, Some 720896); (Android, Some 9371648); (Samsung, Some 393728); (IE, None)]);
  (["HexAlphaColors"],
   [(Edge, Some 5177344); (Firefox, Some 3211264); (Chrome, Some 4063232); (Safari, Some 655360); (Opera, Some 3407872); (IosSaf, Some 655360); (Android, Some 9371648); (Samsung, Some 524800); (IE, None)]);
  (["Nesting"],
   [(Edge, Some 7864320); (Firefox, Some 7667712); (Chrome, Some 7864320); (Safari, Some 1114624); (Opera, Some 6946816); (IosSaf, Some 1114624); (Android, Some 9371648); (Samsung, Some 1638400); (IE, None)]);
  (["NotSelectorList"],
   [(Edge, Some 5767168); (Firefox, Some 5505024); (Chrome, Some 5767168); (Safari, Some 589824); (Opera, Some 4915200); (IosSaf, Some 589824); (Android, Some 9371648); (Samsung, Some 983040); (IE, None)]);
  (["HasSelector"],
   [(Edge, Some 6881280); (Firefox, Some 7929856); (Chrome, Some 6881280); (Safari, Some 984064); (Opera, Some 5963776); (IosSaf, Some 984064); (Android, Some 9371648); (Samsung, Some 1310720); (IE, None)]);
  (["FontFamilySystemUi"],
   [(Edge, Some 5177344); (Firefox, Some 6029312); (Chrome, Some 3670016); (Safari, Some 720896); (Opera, Some 2818048); (IosSaf, Some 720896); (Android, Some 9371648); (Samsung, Some 393728); (IE, None)]);
  (["ExtendedSystemFonts"],
   [(Safari, Some 852224); (IosSaf, Some 852992); (Android, None); (Chrome, None); (Edge, None); (Firefox, None); (IE, None); (Opera, None); (Samsung, None)]);
  (["CalcFunction"],
   [(Edge, Some 786432); (Firefox, Some 1048576); (Chrome, Some 1703936); (Safari, Some 393472); (Opera, Some 983040); (IosSaf, Some 458752); (Android, Some 9371648); (Samsung, Some 262144); (IE, None)]);
  (["CustomMediaQueries"; "FitContentFunctionSize"; "DoublePositionGradients"],
   [(Chrome, Some 4653056); (Edge, Some 5177344); (Firefox, Some 4194304); (Opera, Some 3276800); (Safari, Some 786688); (IosSaf, Some 786944); (Samsung, Some 655360); (Android, Some 4653056); (IE, None)]);
  (["ClampFunction"],
   [(Chrome, Some 5177344); (Edge, Some 5177344); (Firefox, Some 5177344); (Opera, Some 3735552); (Safari, Some 852224); (IosSaf, Some 852992); (Samsung, Some 786432); (Android, Some 5177344); (IE, None)]);
  (["PlaceSelf"; "PlaceItems"],
   [(Chrome, Some 3866624); (Edge, Some 5177344); (Firefox, Some 2949120); (Opera, Some 2818048); (Safari, Some 720896); (IosSaf, Some 720896); (Samsung, Some 458752); (Android, Some 3866624); (IE, None)]);
  (["PlaceContent"],
   [(Chrome, Some 3866624); (Edge, Some 5177344); (Firefox, Some 2949120); (Opera, Some 2818048); (Safari, Some 589824); (IosSaf, Some 589824); (Samsung, Some 458752); (Android, Some 3866624); (IE, None)]);
  (["OverflowShorthand"],
   [(Chrome, Some 4456448); (Edge, Some 5177344); (Firefox, Some 3997696); (Opera, Some 3145728); (Safari, Some 852224); (IosSaf, Some 852992); (Samsung, Some 655360); (Android, Some 4456448); (IE, None)]);
  (["MediaRangeSyntax"],
   [(Chrome, Some 6815744); (Edge, Some 6815744); (Firefox, Some 4128768); (Opera, Some 4653056); (Safari, Some 1049600); (IosSaf, Some 1049600); (Samsung, Some 1310720); (Android, Some 6815744); (IE, None)]);
  (["MediaIntervalSyntax"],
   [(Chrome, Some 6815744); (Edge, Some 6815744); (Firefox, Some 6684672); (Opera, Some 4653056); (Safari, Some 1049600); (IosSaf, Some 1049600); (Samsung, Some 1310720); (Android, Some 6815744); (IE, None)]);
  (["LogicalBorders"],
   [(Chrome, Some 4521984); (Edge, Some 5177344); (Firefox, Some 2686976); (Opera, Some 3145728); (Safari, Some 786688); (IosSaf, Some 786944); (Samsung, Some 655360); (Android, Some 4521984); (IE, None)]);
  (["LogicalBorderShorthand"; "LogicalMarginShorthand"; "LogicalPaddingShorthand"],
   [(Chrome, Some 5701632); (Edge, Some 5701632); (Firefox, Some 4325376); (Opera, Some 4063232); (Safari, Some 917760); (IosSaf, Some 918784); (Samsung, Some 917504); (Android, Some 5701632); (IE, None)]);
  (["LogicalBorderRadius"],
   [(Chrome, Some 5832704); (Edge, Some 5832704); (Firefox, Some 4325376); (Opera, Some 4128768); (Safari, Some 983040); (IosSaf, Some 983040); (Samsung, Some 983040); (Android, Some 5832704); (IE, None)]);
  (["LogicalMargin"; "LogicalPadding"],
   [(Chrome, Some 4521984); (Edge, Some 5177344); (Firefox, Some 2686976); (Opera, Some 3145728); (Safari, Some 786688); (IosSaf, Some 786944); (Samsung, Some 655360); (Android, Some 5701632); (IE, None)]);
  (["LogicalInset"],
   [(Chrome, Some 5701632); (Edge, Some 5701632); (Firefox, Some 4128768); (Opera, Some 4063232); (Safari, Some 917760); (IosSaf, Some 918784); (Samsung, Some 917504); (Android, Some 5701632); (IE, None)]);
  (["LogicalSize"],
   [(Chrome, Some 3735552); (Edge, Some 5177344); (Firefox, Some 2686976); (Opera, Some 2818048); (Safari, Some 786688); (IosSaf, Some 786944); (Samsung, Some 458752); (Android, Some 3735552); (IE, None)]);
  (["LogicalTextAlign"],
   [(Chrome, Some 1179648); (Edge, Some 5177344); (Firefox, Some 262144); (Opera, Some 917504); (Safari, Some 196864); (IosSaf, Some 131072); (Samsung, Some 65536); (Android, Some 2424832); (IE, None)]);
  (["LabColors"],
   [(Chrome, Some 7274496); (Edge, Some 7274496); (Firefox, Some 7405568); (Opera, Some 4915200); (Safari, Some 983040); (IosSaf, Some 983040); (Samsung, Some 1441792); (Android, Some 7274496); (IE, None)]);
  (["OklabColors"],
   [(Chrome, Some 7274496); (Edge, Some 7274496); (Firefox, Some 7405568); (Opera, Some 4915200); (Safari, Some 984064); (IosSaf, Some 984064); (Samsung, Some 1441792); (Android, Some 7274496); (IE, None)]);
  (["ColorFunction"],
   [(Chrome, Some 7274496); (Edge, Some 7274496); (Firefox, Some 7405568); (Opera, Some 4915200); (Safari, Some 655616); (IosSaf, Some 656128); (Samsung, Some 1441792); (Android, Some 7274496); (IE, None)]);
  (["SpaceSeparatedColorNotation"],
   [(Chrome, Some 4259840); (Edge, Some 5177344); (Firefox, Some 3407872); (Opera, Some 3080192); (Safari, Some 786688); (IosSaf, Some 786944); (Samsung, Some 589824); (Android, Some 4259840); (IE, None)]);
  (["TextDecorationThicknessPercent"],
   [(Chrome, Some 5701632); (Edge, Some 5701632); (Firefox, Some 5177344); (Opera, Some 4063232); (Safari, Some 1115136); (IosSaf, Some 1115136); (Samsung, Some 917504); (Android, Some 5701632); (IE, None)]);
  (["TextDecorationThicknessShorthand"],
   [(Chrome, Some 5701632); (Edge, Some 5701632); (Firefox, Some 5177344); (Opera, Some 4063232); (Safari, Some 1704448); (IosSaf, Some 1704448); (Samsung, Some 917504); (Android, Some 5701632); (IE, None)]);
  (["Cue"],
   [(Chrome, Some 1703936); (Edge, Some 5177344); (Firefox, Some 3604480); (Opera, Some 917504); (Safari, Some 458752); (IosSaf, Some 458752); (Samsung, Some 66816); (Android, Some 263168); (IE, None)]);
  (["CueFunction"],
   [(Chrome, Some 1703936); (Edge, Some 5177344); (Opera, Some 917504); (Safari, Some 458752); (IosSaf, Some 458752); (Samsung, Some 66816); (Android, Some 263168); (Firefox, None); (IE, None)]);
  (["AnyPseudo"],
   [(Chrome, Some 1179648); (Edge, Some 5177344); (Firefox, Some 262144); (Opera, Some 917504); (Safari, Some 327680); (IosSaf, Some 327680); (Samsung, Some 65536); (Android, Some 263168); (IE, None)]);
  (["PartPseudo"],
   [(Chrome, Some 4784128); (Edge, Some 5177344); (Firefox, Some 5177344); (Opera, Some 3407872); (Safari, Some 852224); (IosSaf, Some 852992); (Samsung, Some 720896); (Android, Some 4784128); (IE, None)]);
  (["ImageSet"],
   [(Chrome, Some 1638400); (Edge, Some 5177344); (Firefox, Some 5767168); (Opera, Some 917504); (Safari, Some 393216); (IosSaf, Some 393216); (Samsung, Some 66816); (Android, Some 263168); (IE, None)]);
  (["XResolutionUnit"],
   [(Chrome, Some 4456448); (Edge, Some 5177344); (Firefox, Some 4063232); (Opera, Some 3145728); (Safari, Some 1048576); (IosSaf, Some 1048576); (Samsung, Some 655360); (Android, Some 4456448); (IE, None)]);
  (["NthChildOf"],
   [(Chrome, Some 7274496); (Edge, Some 7274496); (Firefox, Some 7405568); (Opera, Some 4915200); (Safari, Some 589824); (IosSaf, Some 589824); (Samsung, Some 1441792); (Android, Some 7274496); (IE, None)]);
  (["MinFunction"; "MaxFunction"],
   [(Chrome, Some 5177344); (Edge, Some 5177344); (Firefox, Some 5177344); (Opera, Some 3735552); (Safari, Some 721152); (IosSaf, Some 721664); (Samsung, Some 786432); (Android, Some 5177344); (IE, None)]);
  (["RoundFunction"; "RemFunction"; "ModFunction"],
   [(Chrome, Some 8192000); (Edge, Some 8192000); (Firefox, Some 7733248); (Opera, Some 5439488); (Safari, Some 984064); (IosSaf, Some 984064); (Samsung, Some 1769472); (Android, Some 8192000); (IE, None)]);
  (["AbsFunction"; "SignFunction"],
   [(Chrome, Some 9043968); (Edge, Some 9043968); (Firefox, Some 7733248); (Opera, Some 5963776); (Safari, Some 984064); (IosSaf, Some 984064); (Android, Some 9043968); (IE, None); (Samsung, None)]);
  (["HypotFunction"],
   [(Chrome, Some 7864320); (Edge, Some 7864320); (Firefox, Some 7733248); (Opera, Some 5242880); (Safari, Some 984064); (IosSaf, Some 984064); (Samsung, Some 1638400); (Android, Some 7864320); (IE, None)]);
  (["GradientInterpolationHints"],
   [(Chrome, Some 2621440); (Edge, Some 5177344); (Firefox, Some 2359296); (Opera, Some 1769472); (Safari, Some 458752); (IosSaf, Some 458752); (Samsung, Some 262144); (Android, Some 2621440); (IE, None)]);
  (["BorderImageRepeatRound"],
   [(Chrome, Some 1966080); (Edge, Some 786432); (Firefox, Some 983040); (IE, Some 720896); (Opera, Some 1179648); (Safari, Some 590080); (IosSaf, Some 590592); (Samsung, Some 131072); (Android, Some 263168)]);
  (["BorderImageRepeatSpace"],
   [(Chrome, Some 3670016); (Edge, Some 786432); (Firefox, Some 3276800); (IE, Some 720896); (Opera, Some 2818048); (Safari, Some 590080); (IosSaf, Some 590592); (Samsung, Some 393216); (Android, Some 3670016)]);
  (["FontSizeRem"],
   [(Chrome, Some 2752512); (Edge, Some 786432); (Firefox, Some 2031616); (IE, Some 589824); (Opera, Some 1835008); (Safari, Some 458752); (IosSaf, Some 458752); (Samsung, Some 262144); (Android, Some 2752512)]);
  (["FontSizeXXXLarge"],
   [(Chrome, Some 5177344); (Edge, Some 5177344); (Firefox, Some 5177344); (Opera, Some 3735552); (Safari, Some 1049600); (IosSaf, Some 1049600); (Samsung, Some 786432); (Android, Some 5177344); (IE, None)]);
  (["FontStyleObliqueAngle"],
   [(Chrome, Some 4063232); (Edge, Some 5177344); (Firefox, Some 3997696); (Opera, Some 3014656); (Safari, Some 721152); (IosSaf, Some 721664); (Samsung, Some 524288); (Android, Some 4063232); (IE, None)]);
  (["FontWeightNumber"],
   [(Chrome, Some 4063232); (Edge, Some 1114112); (Firefox, Some 3997696); (Opera, Some 3014656); (Safari, Some 720896); (IosSaf, Some 720896); (Samsung, Some 524288); (Android, Some 4063232); (IE, None)]);
  (["FontStretchPercentage"],
   [(Chrome, Some 4063232); (Edge, Some 1179648); (Firefox, Some 3997696); (Opera, Some 3014656); (Safari, Some 721152); (IosSaf, Some 721664); (Samsung, Some 524288); (Android, Some 4063232); (IE, None)]);
  (["LightDark"],
   [(Chrome, Some 8060928); (Edge, Some 8060928); (Firefox, Some 7864320); (Opera, Some 5373952); (Safari, Some 1115392); (IosSaf, Some 1115392); (Samsung, Some 1769472); (Android, Some 8060928); (IE, None)]);
  (["AccentSystemColor"],
   [(Firefox, Some 6750208); (Safari, Some 1049856); (IosSaf, Some 1049856); (Android, None); (Chrome, None); (Edge, None); (IE, None); (Opera, None); (Samsung, None)]);
  (["AnimationTimelineShorthand"],
   [(Chrome, Some 7536640); (Edge, Some 7536640); (Opera, Some 5046272); (Samsung, Some 1507328); (Android, Some 7536640); (Firefox, None); (IE, None); (IosSaf, None); (Safari, None)]);
  (["ViewTransition"],
   [(Chrome, Some 7143424); (Edge, Some 7143424); (Firefox, Some 9437184); (Opera, Some 4849664); (Safari, Some 1179648); (IosSaf, Some 1179648); (Samsung, Some 1376256); (Android, Some 7143424); (IE, None)]);
  (["DetailsContent"],
   [(Chrome, Some 8585216); (Edge, Some 8585216); (Firefox, Some 9371648); (Opera, Some 5701632); (Safari, Some 1180672); (IosSaf, Some 1180672); (Samsung, Some 1900544); (Android, Some 8585216); (IE, None)]);
  (["TargetText"],
   [(Chrome, Some 5832704); (Edge, Some 5832704); (Firefox, Some 8585216); (Opera, Some 4128768); (Safari, Some 1180160); (IosSaf, Some 1180160); (Samsung, Some 983040); (Android, Some 5832704); (IE, None)]);
  (["Picker"],
   [(Chrome, Some 8847360); (Edge, Some 8847360); (Opera, Some 5832704); (Samsung, Some 1900544); (Android, Some 8847360); (Firefox, None); (IE, None); (IosSaf, None); (Safari, None)]);
  (["PickerIcon"; "Checkmark"],
   [(Chrome, Some 8716288); (Edge, Some 8716288); (Opera, Some 5767168); (Samsung, Some 1900544); (Android, Some 8716288); (Firefox, None); (IE, None); (IosSaf, None); (Safari, None)]);
  (["GrammarError"; "SpellingError"],
   [(Chrome, Some 7929856); (Edge, Some 7929856); (Opera, Some 5308416); (Safari, Some 1115136); (IosSaf, Some 1115136); (Samsung, Some 1638400); (Android, Some 7929856); (Firefox, None); (IE, None)]);
  (["StatePseudoClass"],
   [(Chrome, Some 8192000); (Edge, Some 8192000); (Firefox, Some 8257536); (Opera, Some 5439488); (Safari, Some 1115136); (IosSaf, Some 1115136); (Samsung, Some 1769472); (Android, Some 8192000); (IE, None)]);
  (["QUnit"],
   [(Chrome, Some 4128768); (Edge, Some 5177344); (Firefox, Some 3211264); (Opera, Some 3014656); (Safari, Some 852224); (IosSaf, Some 852992); (Samsung, Some 524288); (Android, Some 4128768); (IE, None)]);
  (["CapUnit"],
   [(Chrome, Some 7733248); (Edge, Some 7733248); (Firefox, Some 6356992); (Opera, Some 5177344); (Safari, Some 1114624); (IosSaf, Some 1114624); (Samsung, Some 1638400); (Android, Some 7733248); (IE, None)]);
  (["ChUnit"],
   [(Chrome, Some 1769472); (Edge, Some 786432); (Firefox, Some 262144); (IE, Some 589824); (Opera, Some 983040); (Safari, Some 458752); (IosSaf, Some 458752); (Samsung, Some 66816); (Android, Some 263168)]);
  (["ContainerQueryLengthUnits"],
   [(Chrome, Some 6881280); (Edge, Some 6881280); (Firefox, Some 7208960); (Opera, Some 4718592); (Safari, Some 1048576); (IosSaf, Some 1048576); (Samsung, Some 1310720); (Android, Some 6881280); (IE, None)]);
  (["EmUnit"],
   [(Chrome, Some 1179648); (Edge, Some 786432); (Firefox, Some 262144); (IE, Some 196608); (Opera, Some 655616); (Safari, Some 65536); (IosSaf, Some 65536); (Samsung, Some 65536); (Android, Some 65536)]);
  (["ExUnit"; "CircleListStyleType"; "DecimalListStyleType"; "DiscListStyleType"; "SquareListStyleType"],
   [(Chrome, Some 1179648); (Edge, Some 786432); (Firefox, Some 262144); (IE, Some 262144); (Opera, Some 655616); (Safari, Some 65536); (IosSaf, Some 65536); (Samsung, Some 65536); (Android, Some 263168)]);
  (["IcUnit"],
   [(Chrome, Some 6946816); (Edge, Some 6946816); (Firefox, Some 6356992); (Opera, Some 4718592); (Safari, Some 984064); (IosSaf, Some 984064); (Samsung, Some 1310720); (Android, Some 6946816); (IE, None)]);
  (["LhUnit"],
   [(Chrome, Some 7143424); (Edge, Some 7143424); (Firefox, Some 7864320); (Opera, Some 4849664); (Safari, Some 1049600); (IosSaf, Some 1049600); (Samsung, Some 1376256); (Android, Some 7143424); (IE, None)]);
  (["RcapUnit"],
   [(Chrome, Some 7733248); (Edge, Some 7733248); (Firefox, Some 9633792); (Opera, Some 5177344); (Safari, Some 1114624); (IosSaf, Some 1114624); (Samsung, Some 1638400); (Android, Some 7733248); (IE, None)]);
  (["RchUnit"; "RexUnit"; "RicUnit"],
   [(Chrome, Some 7274496); (Edge, Some 7274496); (Firefox, Some 9633792); (Opera, Some 4915200); (Safari, Some 1114624); (IosSaf, Some 1114624); (Samsung, Some 1441792); (Android, Some 7274496); (IE, None)]);
  (["RemUnit"],
   [(Chrome, Some 1179648); (Edge, Some 786432); (Firefox, Some 262144); (IE, Some 589824); (Opera, Some 786432); (Safari, Some 327680); (IosSaf, Some 262144); (Samsung, Some 65536); (Android, Some 131072)]);
  (["RlhUnit"],
   [(Chrome, Some 7274496); (Edge, Some 7274496); (Firefox, Some 7864320); (Opera, Some 4915200); (Safari, Some 1049600); (IosSaf, Some 1049600); (Samsung, Some 1441792); (Android, Some 7274496); (IE, None)]);
  (["VbUnit"; "ViUnit"; "ViewportPercentageUnitsDynamic"; "ViewportPercentageUnitsLarge"; "ViewportPercentageUnitsSmall"],
   [(Chrome, Some 7077888); (Edge, Some 7077888); (Firefox, Some 6619136); (Opera, Some 4784128); (Safari, Some 984064); (IosSaf, Some 984064); (Samsung, Some 1376256); (Android, Some 7077888); (IE, None)]);
  (["VhUnit"; "VwUnit"],
   [(Chrome, Some 1638400); (Edge, Some 786432); (Firefox, Some 1245184); (IE, Some 589824); (Opera, Some 917504); (Safari, Some 393216); (IosSaf, Some 393216); (Samsung, Some 66816); (Android, Some 263168)]);
  (["VmaxUnit"],
   [(Chrome, Some 1703936); (Edge, Some 1048576); (Firefox, Some 1245184); (Opera, Some 917504); (Safari, Some 458752); (IosSaf, Some 458752); (Samsung, Some 66816); (Android, Some 66816); (IE, None)]);
  (["VminUnit"],
   [(Chrome, Some 1703936); (Edge, Some 786432); (Firefox, Some 1245184); (IE, Some 655360); (Opera, Some 917504); (Safari, Some 458752); (IosSaf, Some 458752); (Samsung, Some 66816); (Android, Some 263168)]);
  (["ConicGradient"; "RepeatingConicGradient"],
   [(Chrome, Some 4521984); (Edge, Some 5177344); (Firefox, Some 5439488); (Opera, Some 3145728); (Safari, Some 786688); (IosSaf, Some 786944); (Samsung, Some 655360); (Android, Some 4521984); (IE, None)]);
  (["LinearGradient"; "RepeatingLinearGradient"],
   [(Chrome, Some 1179648); (Edge, Some 786432); (Firefox, Some 262144); (IE, Some 655360); (Opera, Some 720896); (Safari, Some 327936); (IosSaf, Some 327680); (Samsung, Some 65536); (Android, Some 263168)]);
  (["RadialGradient"],
   [(Chrome, Some 1179648); (Edge, Some 786432); (Firefox, Some 262144); (IE, Some 655360); (Opera, Some 786432); (Safari, Some 327936); (IosSaf, Some 327680); (Samsung, Some 65536); (Android, Some 263168)]);
  (["RepeatingRadialGradient"],
   [(Chrome, Some 1179648); (Edge, Some 786432); (Firefox, Some 655360); (IE, Some 655360); (Opera, Some 786432); (Safari, Some 327936); (IosSaf, Some 327680); (Samsung, Some 65536); (Android, Some 263168)]);
  (["AfarListStyleType"; "AmharicListStyleType"; "AmharicAbegedeListStyleType"; "EthiopicListStyleType"; "EthiopicAbegedeListStyleType"; "EthiopicAbegedeAmEtListStyleType"; "EthiopicAbegedeGezListStyleType"; "EthiopicAbegedeTiErListStyleType"; "EthiopicAbegedeTiEtListStyleType"; "EthiopicHalehameAaErListStyleType"; "EthiopicHalehameAaEtListStyleType"; "EthiopicHalehameAmEtListStyleType"; "EthiopicHalehameGezListStyleType"; "EthiopicHalehameOmEtListStyleType"; "EthiopicHalehameSidEtListStyleType"; "EthiopicHalehameSoEtListStyleType"; "EthiopicHalehameTigListStyleType"; "LowerHexadecimalListStyleType"; "LowerNorwegianListStyleType"; "UpperHexadecimalListStyleType"; "UpperNorwegianListStyleType"],
   [(Chrome, Some 1179648); (Edge, Some 5963776); (Opera, Some 917504); (Safari, Some 327680); (IosSaf, Some 262656); (Samsung, Some 65536); (Android, Some 196608); (Firefox, None); (IE, None)]);
  (["ArabicIndicListStyleType"; "BengaliListStyleType"; "CjkEarthlyBranchListStyleType"; "CjkHeavenlyStemListStyleType"; "DevanagariListStyleType"; "GujaratiListStyleType"; "GurmukhiListStyleType"; "KannadaListStyleType"; "KhmerListStyleType"; "LaoListStyleType"; "MalayalamListStyleType"; "MyanmarListStyleType"; "OriyaListStyleType"; "PersianListStyleType"; "TeluguListStyleType"; "ThaiListStyleType"],
   [(Chrome, Some 1179648); (Edge, Some 5177344); (Firefox, Some 262144); (Opera, Some 917504); (Safari, Some 327680); (IosSaf, Some 262656); (Samsung, Some 65536); (Android, Some 263168); (IE, None)]);
  (["ArmenianListStyleType"; "DecimalLeadingZeroListStyleType"; "GeorgianListStyleType"; "LowerAlphaListStyleType"; "LowerGreekListStyleType"; "LowerRomanListStyleType"; "UpperAlphaListStyleType"; "UpperLatinListStyleType"; "UpperRomanListStyleType"],
   [(Chrome, Some 1179648); (Edge, Some 786432); (Firefox, Some 262144); (IE, Some 524288); (Opera, Some 655616); (Safari, Some 65536); (IosSaf, Some 65536); (Samsung, Some 65536); (Android, Some 263168)]);
  (["AsterisksListStyleType"; "FootnotesListStyleType"],
   [(Chrome, Some 1179648); (Edge, Some 5963776); (Opera, Some 917504); (Safari, Some 327936); (IosSaf, Some 327680); (Samsung, Some 65536); (Android, Some 263168); (Firefox, None); (IE, None)]);
  (["BinaryListStyleType"; "OctalListStyleType"; "OromoListStyleType"; "SidamaListStyleType"; "SomaliListStyleType"; "TigreListStyleType"; "TigrinyaErListStyleType"; "TigrinyaErAbegedeListStyleType"; "TigrinyaEtListStyleType"; "TigrinyaEtAbegedeListStyleType"],
   [(Chrome, Some 1179648); (Edge, Some 5963776); (Opera, Some 917504); (Safari, Some 327680); (IosSaf, Some 262656); (Samsung, Some 65536); (Android, Some 263168); (Firefox, None); (IE, None)]);
  (["CambodianListStyleType"; "MongolianListStyleType"; "TibetanListStyleType"],
   [(Chrome, Some 1179648); (Edge, Some 5177344); (Firefox, Some 2162688); (Opera, Some 917504); (Safari, Some 327680); (IosSaf, Some 262656); (Samsung, Some 65536); (Android, Some 263168); (IE, None)]);
  (["CjkDecimalListStyleType"],
   [(Chrome, Some 5963776); (Edge, Some 5963776); (Firefox, Some 1835008); (Opera, Some 4194304); (Safari, Some 983040); (IosSaf, Some 983040); (Samsung, Some 1048576); (Android, Some 5963776); (IE, None)]);
  (["DisclosureClosedListStyleType"; "DisclosureOpenListStyleType"],
   [(Chrome, Some 5832704); (Edge, Some 5832704); (Firefox, Some 2162688); (Opera, Some 4128768); (Safari, Some 983040); (IosSaf, Some 983040); (Samsung, Some 983040); (Android, Some 5832704); (IE, None)]);
  (["EthiopicNumericListStyleType"; "JapaneseFormalListStyleType"; "JapaneseInformalListStyleType"; "TamilListStyleType"],
   [(Chrome, Some 5963776); (Edge, Some 5963776); (Firefox, Some 262144); (Opera, Some 4194304); (Safari, Some 983040); (IosSaf, Some 983040); (Samsung, Some 1048576); (Android, Some 5963776); (IE, None)]);
  (["HebrewListStyleType"; "HiraganaListStyleType"; "HiraganaIrohaListStyleType"; "KatakanaListStyleType"; "KatakanaIrohaListStyleType"; "NoneListStyleType"; "AutoSize"],
   [(Chrome, Some 1179648); (Edge, Some 786432); (Firefox, Some 262144); (IE, Some 720896); (Opera, Some 917504); (Safari, Some 65536); (IosSaf, Some 65536); (Samsung, Some 65536); (Android, Some 263168)]);
  (["KoreanHangulFormalListStyleType"; "KoreanHanjaFormalListStyleType"; "KoreanHanjaInformalListStyleType"],
   [(Chrome, Some 2949120); (Edge, Some 5177344); (Firefox, Some 1835008); (Opera, Some 2097152); (Safari, Some 983040); (IosSaf, Some 983040); (Samsung, Some 327680); (Android, Some 2949120); (IE, None)]);
  (["LowerArmenianListStyleType"; "UpperArmenianListStyleType"],
   [(Chrome, Some 1179648); (Edge, Some 5177344); (Firefox, Some 2162688); (Opera, Some 917504); (Safari, Some 327936); (IosSaf, Some 327680); (Samsung, Some 65536); (Android, Some 263168); (IE, None)]);
  (["LowerLatinListStyleType"],
   [(Chrome, Some 1179648); (Edge, Some 786432); (Firefox, Some 262144); (IE, Some 524288); (Opera, Some 655616); (Safari, Some 65536); (IosSaf, Some 65536); (Samsung, Some 327680); (Android, Some 263168)]);
  (["SimpChineseFormalListStyleType"; "SimpChineseInformalListStyleType"; "TradChineseFormalListStyleType"; "TradChineseInformalListStyleType"],
   [(Chrome, Some 2949120); (Edge, Some 5177344); (Firefox, Some 262144); (Opera, Some 2097152); (Safari, Some 983040); (IosSaf, Some 983040); (Samsung, Some 327680); (Android, Some 2949120); (IE, None)]);
  (["StringListStyleType"],
   [(Chrome, Some 5177344); (Edge, Some 5177344); (Firefox, Some 2555904); (Opera, Some 3735552); (Safari, Some 917760); (IosSaf, Some 918784); (Samsung, Some 786432); (Android, Some 5177344); (IE, None)]);
  (["SymbolsListStyleType"],
   [(Firefox, Some 2293760); (Android, None); (Chrome, None); (Edge, None); (IE, None); (IosSaf, None); (Opera, None); (Safari, None); (Samsung, None)]);
  (["AnchorSizeSize"],
   [(Chrome, Some 8192000); (Edge, Some 8192000); (Firefox, Some 9633792); (Opera, Some 5439488); (Safari, Some 1703936); (IosSaf, Some 1703936); (Samsung, Some 1769472); (Android, Some 8192000); (IE, None)]);
  (["FitContentSize"],
   [(Chrome, Some 1638400); (Edge, Some 5177344); (Firefox, Some 262144); (Opera, Some 917504); (Safari, Some 458752); (IosSaf, Some 458752); (Samsung, Some 66816); (Android, Some 263168); (IE, None)]);
  (["MaxContentSize"],
   [(Chrome, Some 1638400); (Edge, Some 5177344); (Firefox, Some 262144); (Opera, Some 2818048); (Safari, Some 720896); (IosSaf, Some 720896); (Samsung, Some 66816); (Android, Some 263168); (IE, None)]);
  (["MinContentSize"],
   [(Chrome, Some 3014656); (Edge, Some 5177344); (Firefox, Some 262144); (Opera, Some 2162688); (Safari, Some 720896); (IosSaf, Some 720896); (Samsung, Some 327680); (Android, Some 3014656); (IE, None)]);
  (["StretchSize"],
   [(Chrome, Some 9043968); (Edge, Some 9043968); (Opera, Some 5963776); (Android, Some 9043968); (Firefox, None); (IE, None); (IosSaf, None); (Safari, None); (Samsung, None)]);
  (["WebkitFillAvailableSize"],
   [(Firefox, Some 9568256); (Safari, Some 458752); (IosSaf, Some 458752); (Samsung, Some 327680); (Android, None); (Chrome, None); (Edge, None); (IE, None); (Opera, None)]);
  (["P3Colors"; "LangSelectorList"],
   [(Safari, Some 655616); (IosSaf, Some 656128); (Android, None); (Chrome, None); (Edge, None); (Firefox, None); (IE, None); (Opera, None); (Samsung, None)])
].

(** prefixes.rs:195-2242: the first and last version of a browser that needs a prefix *)
Definition prefix_table : list (list string * list (browser * (option N * option N) * prefix)) :=
[
  (["BorderRadius"; "BorderTopLeftRadius"; "BorderTopRightRadius"; "BorderBottomRightRadius"; "BorderBottomLeftRadius"],
   [(Android, (None, Some 131328), WebKit); (Chrome, (None, Some 262144), WebKit); (Firefox, (Some 131072, Some 198144), Moz); (IosSaf, (None, Some 197120), WebKit); (Safari, (Some 196864, Some 262144), WebKit)]);
  (["BoxShadow"],
   [(Android, (Some 131328, Some 196608), WebKit); (Chrome, (Some 262144, Some 589824), WebKit); (Firefox, (Some 197888, Some 198144), Moz); (IosSaf, (Some 197120, Some 262656), WebKit); (Safari, (Some 196864, Some 327680), WebKit)]);
  (["Animation"; "AnimationName"; "AnimationDuration"; "AnimationDelay"; "AnimationDirection"; "AnimationFillMode"; "AnimationIterationCount"; "AnimationPlayState"; "AnimationTimingFunction"; "AtKeyframes"],
   [(Android, (Some 131328, Some 263171), WebKit); (Chrome, (Some 262144, Some 2752512), WebKit); (Firefox, (Some 327680, Some 983040), Moz); (IosSaf, (Some 197120, Some 524544), WebKit); (Opera, (Some 786432, Some 786432), O); (Opera, (Some 983040, Some 1900544), WebKit); (Safari, (Some 262144, Some 524288), WebKit)]);
  (["Transition"; "TransitionProperty"; "TransitionDuration"; "TransitionDelay"; "TransitionTimingFunction"],
   [(Android, (Some 131328, Some 262656), WebKit); (Chrome, (Some 262144, Some 1638400), WebKit); (Firefox, (Some 262144, Some 983040), Moz); (IosSaf, (Some 197120, Some 393216), WebKit); (Opera, (Some 655360, Some 786432), O); (Safari, (Some 196864, Some 393216), WebKit)]);
  (["Transform"; "TransformOrigin"],
   [(Android, (Some 131328, Some 263171), WebKit); (Chrome, (Some 262144, Some 2293760), WebKit); (Firefox, (Some 197888, Some 983040), Moz); (IE, (None, Some 589824), Ms); (IosSaf, (Some 197120, Some 524544), WebKit); (Opera, (Some 656640, Some 786432), O); (Opera, (Some 983040, Some 1441792), WebKit); (Safari, (Some 196864, Some 524288), WebKit)]);
  (["Perspective"; "PerspectiveOrigin"; "TransformStyle"],
   [(Android, (Some 196608, Some 263171), WebKit); (Chrome, (Some 786432, Some 2293760), WebKit); (Firefox, (Some 655360, Some 983040), Moz); (IosSaf, (Some 197120, Some 524544), WebKit); (Opera, (Some 983040, Some 1441792), WebKit); (Safari, (Some 262144, Some 524288), WebKit)]);
  (["BackfaceVisibility"],
   [(Android, (Some 196608, Some 263171), WebKit); (Chrome, (Some 786432, Some 2293760), WebKit); (Firefox, (Some 655360, Some 983040), Moz); (IosSaf, (Some 197120, Some 983552), WebKit); (Opera, (Some 983040, Some 1441792), WebKit); (Safari, (Some 262144, Some 983552), WebKit)]);
  (["LinearGradient"; "RepeatingLinearGradient"; "RadialGradient"; "RepeatingRadialGradient"],
   [(Android, (Some 131328, Some 262656), WebKit); (Chrome, (Some 262144, Some 1638400), WebKit); (Firefox, (Some 198144, Some 983040), Moz); (IosSaf, (Some 197120, Some 393216), WebKit); (Opera, (Some 721152, Some 786432), O); (Safari, (Some 262144, Some 393216), WebKit)]);
  (["BoxSizing"],
   [(Android, (Some 131328, Some 196608), WebKit); (Chrome, (Some 262144, Some 589824), WebKit); (Firefox, (Some 131072, Some 1835008), Moz); (IosSaf, (Some 197120, Some 262656), WebKit); (Safari, (Some 196864, Some 327680), WebKit)]);
  (["Filter"],
   [(Android, (Some 263168, Some 263171), WebKit); (Chrome, (Some 1179648, Some 3407872), WebKit); (IosSaf, (Some 393216, Some 589824), WebKit); (Opera, (Some 983040, Some 2555904), WebKit); (Safari, (Some 393216, Some 589824), WebKit); (Samsung, (Some 262144, Some 393728), WebKit)]);
  (["FilterFunction"],
   [(IosSaf, (Some 589824, Some 590592), WebKit); (Safari, (None, Some 589824), WebKit)]);
  (["BackdropFilter"],
   [(Edge, (Some 1114112, Some 1179648), WebKit); (IosSaf, (Some 589824, Some 1115648), WebKit); (Safari, (Some 589824, Some 1115648), WebKit)]);
  (["Element"],
   [(Firefox, (Some 131072, None), Moz)]);
  (["Columns"; "ColumnWidth"; "ColumnGap"; "ColumnRule"; "ColumnRuleColor"; "ColumnRuleWidth"; "ColumnCount"; "ColumnRuleStyle"; "ColumnSpan"; "ColumnFill"],
   [(Android, (Some 131328, Some 263171), WebKit); (Chrome, (Some 262144, Some 3211264), WebKit); (Firefox, (Some 131072, Some 3342336), Moz); (IosSaf, (Some 197120, Some 524544), WebKit); (Opera, (Some 983040, Some 2359296), WebKit); (Safari, (Some 196864, Some 524288), WebKit); (Samsung, (None, Some 262144), WebKit)]);
  (["BreakBefore"; "BreakAfter"; "BreakInside"],
   [(Android, (Some 131328, Some 263171), WebKit); (Chrome, (Some 262144, Some 3211264), WebKit); (IosSaf, (Some 197120, Some 524544), WebKit); (Opera, (Some 983040, Some 2359296), WebKit); (Safari, (Some 196864, Some 524288), WebKit); (Samsung, (None, Some 262144), WebKit)]);
  (["UserSelect"],
   [(Android, (Some 131328, Some 263171), WebKit); (Chrome, (Some 262144, Some 3473408), WebKit); (Edge, (Some 786432, Some 1179648), Ms); (Firefox, (Some 131072, Some 4456448), Moz); (IE, (Some 655360, None), Ms); (IosSaf, (Some 197120, None), WebKit); (Opera, (Some 983040, Some 2621440), WebKit); (Safari, (Some 196864, None), WebKit); (Samsung, (Some 262144, Some 327680), WebKit)]);
  (["DisplayFlex"; "InlineFlex"; "Flex"; "FlexGrow"; "FlexShrink"; "FlexBasis"; "FlexDirection"; "FlexWrap"; "FlexFlow"; "JustifyContent"; "Order"; "AlignItems"; "AlignSelf"; "AlignContent"],
   [(Android, (Some 131328, Some 262656), WebKit); (Chrome, (Some 262144, Some 1835008), WebKit); (Firefox, (Some 131072, Some 1376256), Moz); (IE, (Some 655360, Some 655360), Ms); (IosSaf, (Some 197120, Some 524544), WebKit); (Opera, (Some 983040, Some 1048576), WebKit); (Safari, (Some 196864, Some 524288), WebKit)]);
  (["Calc"],
   [(Chrome, (Some 1245184, Some 1638400), WebKit); (Firefox, (Some 262144, Some 983040), Moz); (IosSaf, (None, Some 393216), WebKit); (Safari, (None, Some 393216), WebKit)]);
  (["BackgroundOrigin"; "BackgroundSize"],
   [(Android, (Some 131328, Some 131840), WebKit); (Firefox, (None, Some 198144), Moz); (Opera, (None, Some 655360), O)]);
  (["BackgroundClip"],
   [(Android, (Some 262144, Some 263171), WebKit); (Chrome, (Some 262144, Some 7798784), WebKit); (Edge, (Some 786432, Some 917504), Ms); (Edge, (Some 5177344, Some 7798784), WebKit); (Opera, (Some 983040, Some 6881280), WebKit); (Safari, (Some 197120, Some 851968), WebKit); (Samsung, (Some 262144, Some 1572864), WebKit); (IosSaf, (Some 262144, Some 851968), WebKit)]);
  (["FontFeatureSettings"; "FontVariantLigatures"; "FontLanguageOverride"],
   [(Android, (Some 263168, Some 263171), WebKit); (Chrome, (Some 1048576, Some 3080192), WebKit); (Firefox, (Some 262144, Some 2162688), Moz); (Opera, (Some 983040, Some 2228224), WebKit); (Samsung, (None, Some 262144), WebKit)]);
  (["FontKerning"],
   [(Android, (None, Some 263168), WebKit); (Chrome, (Some 1900544, Some 2097152), WebKit); (IosSaf, (Some 524288, Some 721664), WebKit); (Opera, (Some 1048576, Some 1245184), WebKit); (Safari, (Some 458752, Some 589824), WebKit)]);
  (["BorderImage"],
   [(Android, (Some 131328, Some 262656), WebKit); (Chrome, (Some 262144, Some 917504), WebKit); (Firefox, (Some 197888, Some 917504), Moz); (IosSaf, (Some 197120, Some 327680), WebKit); (Opera, (Some 720896, Some 786688), O); (Safari, (Some 196864, Some 327936), WebKit)]);
  (["PseudoElementSelection"],
   [(Firefox, (Some 131072, Some 3997696), Moz)]);
  (["PseudoElementPlaceholder"],
   [(Android, (Some 131328, Some 263171), WebKit); (Chrome, (Some 262144, Some 3670016), WebKit); (Edge, (Some 786432, Some 1179648), Ms); (Firefox, (Some 1179648, Some 3276800), Moz); (IE, (Some 655360, None), Ms); (IosSaf, (Some 262656, Some 655360), WebKit); (Opera, (Some 983040, Some 2818048), WebKit); (Safari, (Some 327680, Some 655360), WebKit); (Samsung, (Some 262144, Some 393728), WebKit)]);
  (["PseudoClassPlaceholderShown"],
   [(Firefox, (Some 262144, Some 3276800), Moz); (IE, (Some 655360, None), Ms)]);
  (["Hyphens"],
   [(Edge, (Some 786432, Some 1179648), Ms); (Firefox, (Some 393216, Some 2752512), Moz); (IE, (Some 655360, None), Ms); (IosSaf, (Some 262656, Some 1050112), WebKit); (Safari, (Some 327936, Some 1050112), WebKit)]);
  (["PseudoClassFullscreen"],
   [(Chrome, (Some 983040, Some 4587520), WebKit); (Firefox, (Some 655360, Some 4128768), Moz); (IE, (Some 720896, None), Ms); (Opera, (Some 983040, Some 4128768), WebKit); (Safari, (Some 327936, Some 1049344), WebKit); (Samsung, (Some 262144, Some 590336), WebKit)]);
  (["PseudoElementBackdrop"],
   [(Android, (Some 263168, Some 263171), WebKit); (Chrome, (Some 2097152, Some 2359296), WebKit); (Edge, (Some 786432, Some 1179648), Ms); (IE, (None, None), Ms); (Opera, (Some 1245184, Some 1507328), WebKit)]);
  (["PseudoElementFileSelectorButton"],
   [(Android, (Some 263168, Some 263171), WebKit); (Chrome, (Some 262144, Some 5767168), WebKit); (Edge, (Some 786432, Some 1179648), Ms); (Edge, (Some 5177344, Some 5767168), WebKit); (IE, (Some 655360, None), Ms); (IosSaf, (Some 197120, Some 917504), WebKit); (Opera, (Some 983040, Some 4849664), WebKit); (Safari, (Some 196864, Some 917504), WebKit); (Samsung, (Some 262144, Some 917504), WebKit)]);
  (["PseudoClassAutofill"],
   [(Android, (Some 263168, Some 263171), WebKit); (Chrome, (Some 262144, Some 7143424), WebKit); (Edge, (Some 5177344, Some 7143424), WebKit); (IosSaf, (Some 197120, Some 918784), WebKit); (Opera, (Some 983040, Some 6225920), WebKit); (Safari, (Some 196864, Some 917760), WebKit); (Samsung, (Some 262144, Some 1310720), WebKit)]);
  (["TabSize"],
   [(Firefox, (Some 262144, Some 5898240), Moz); (Opera, (Some 656896, Some 786688), O)]);
  (["MaxContent"; "MinContent"],
   [(Android, (Some 263168, Some 263171), WebKit); (Chrome, (Some 1441792, Some 2949120), WebKit); (Firefox, (Some 196608, Some 4259840), Moz); (IosSaf, (Some 458752, Some 852992), WebKit); (Opera, (Some 983040, Some 2097152), WebKit); (Safari, (Some 393472, Some 655616), WebKit); (Samsung, (None, Some 262144), WebKit)]);
  (["Fill"; "FillAvailable"],
   [(Chrome, (Some 1441792, None), WebKit); (Android, (Some 263168, None), WebKit); (Edge, (Some 5177344, None), WebKit); (Firefox, (Some 196608, Some 4259840), Moz); (IosSaf, (Some 458752, Some 852992), WebKit); (Opera, (Some 983040, None), WebKit); (Safari, (Some 393472, Some 655616), WebKit); (Samsung, (Some 262144, None), WebKit)]);
  (["FitContent"],
   [(Android, (Some 263168, Some 263171), WebKit); (Chrome, (Some 1441792, Some 2949120), WebKit); (Firefox, (Some 196608, Some 6094848), Moz); (IosSaf, (Some 458752, Some 852992), WebKit); (Opera, (Some 983040, Some 2097152), WebKit); (Safari, (Some 393472, Some 655616), WebKit); (Samsung, (None, Some 262144), WebKit)]);
  (["Stretch"],
   [(Firefox, (Some 196608, None), Moz); (Android, (Some 263168, Some 263171), WebKit); (Chrome, (Some 1441792, Some 8978432), WebKit); (Edge, (Some 5177344, Some 8978432), WebKit); (IosSaf, (Some 458752, None), WebKit); (Opera, (Some 983040, None), WebKit); (Safari, (Some 393472, None), WebKit); (Samsung, (Some 262144, None), WebKit)]);
  (["ZoomIn"; "ZoomOut"],
   [(Chrome, (Some 262144, Some 2359296), WebKit); (Firefox, (Some 131072, Some 1507328), Moz); (Opera, (Some 983040, Some 1507328), WebKit); (Safari, (Some 196864, Some 524288), WebKit)]);
  (["Grab"; "Grabbing"],
   [(Chrome, (Some 262144, Some 4390912), WebKit); (Firefox, (Some 131072, Some 1703936), Moz); (Opera, (Some 983040, Some 3538944), WebKit); (Safari, (Some 196864, Some 655616), WebKit)]);
  (["Sticky"],
   [(IosSaf, (Some 393216, Some 786944), WebKit); (Safari, (Some 393472, Some 786688), WebKit)]);
  (["TouchAction"],
   [(IE, (Some 655360, Some 655360), Ms)]);
  (["TextDecorationSkip"; "TextDecorationSkipInk"],
   [(IosSaf, (Some 524288, None), WebKit); (Safari, (Some 459008, Some 786432), WebKit)]);
  (["TextDecoration"],
   [(IosSaf, (Some 524288, Some 1704192), WebKit); (Safari, (Some 524288, Some 1704192), WebKit)]);
  (["TextDecorationColor"; "TextDecorationLine"; "TextDecorationStyle"],
   [(Firefox, (Some 393216, Some 2293760), Moz); (IosSaf, (Some 524288, Some 786432), WebKit); (Safari, (Some 524288, Some 786432), WebKit)]);
  (["TextSizeAdjust"],
   [(Firefox, (None, None), Moz); (Edge, (Some 786432, Some 1179648), Ms); (IE, (Some 655360, None), Ms); (IosSaf, (Some 327680, None), WebKit)]);
  (["MaskClip"; "MaskComposite"; "MaskImage"; "MaskOrigin"; "MaskRepeat"; "MaskBorderRepeat"; "MaskBorderSource"; "Mask"; "MaskPosition"; "MaskSize"; "MaskBorder"; "MaskBorderOutset"; "MaskBorderWidth"; "MaskBorderSlice"],
   [(Android, (Some 131328, Some 263171), WebKit); (Chrome, (Some 262144, Some 7798784), WebKit); (Edge, (Some 5177344, Some 7798784), WebKit); (IosSaf, (Some 197120, Some 983552), WebKit); (Opera, (Some 983040, Some 6881280), WebKit); (Safari, (Some 262144, Some 983552), WebKit); (Samsung, (Some 262144, Some 1572864), WebKit)]);
  (["ClipPath"],
   [(Android, (Some 263168, Some 263171), WebKit); (Chrome, (Some 1572864, Some 3538944), WebKit); (IosSaf, (Some 458752, Some 589824), WebKit); (Opera, (Some 983040, Some 2686976), WebKit); (Safari, (Some 458752, Some 589824), WebKit); (Samsung, (Some 262144, Some 327680), WebKit)]);
  (["BoxDecorationBreak"],
   [(Android, (Some 263168, Some 263171), WebKit); (Chrome, (Some 1441792, Some 8454144), WebKit); (Edge, (Some 5177344, Some 8454144), WebKit); (IosSaf, (Some 458752, None), WebKit); (Opera, (Some 983040, None), WebKit); (Safari, (Some 393472, None), WebKit); (Samsung, (Some 262144, None), WebKit)]);
  (["ObjectFit"; "ObjectPosition"],
   [(Opera, (Some 656896, Some 786688), O)]);
  (["ShapeMargin"; "ShapeOutside"; "ShapeImageThreshold"],
   [(IosSaf, (Some 524288, Some 655360), WebKit); (Safari, (Some 459008, Some 655360), WebKit)]);
  (["TextOverflow"],
   [(Opera, (Some 589824, Some 786432), O)]);
  (["AtViewport"],
   [(Edge, (Some 786432, Some 1179648), Ms); (IE, (Some 655360, None), Ms); (Opera, (Some 720896, Some 786688), O)]);
  (["AtResolution"],
   [(Android, (Some 131840, Some 262656), WebKit); (Chrome, (Some 262144, Some 1835008), WebKit); (Firefox, (Some 197888, Some 983040), Moz); (IosSaf, (Some 262144, Some 984576), WebKit); (Opera, (Some 591104, Some 786432), O); (Safari, (Some 262144, Some 984576), WebKit)]);
  (["TextAlignLast"],
   [(Firefox, (Some 786432, Some 3145728), Moz)]);
  (["Pixelated"],
   [(Firefox, (Some 198144, Some 4194304), Moz); (IosSaf, (Some 327680, Some 393216), WebKit); (Opera, (Some 722432, Some 786688), O); (Safari, (None, Some 393216), WebKit)]);
  (["ImageRendering"],
   [(IE, (Some 458752, None), Ms)]);
  (["BorderInlineStart"; "BorderInlineEnd"; "MarginInlineStart"; "MarginInlineEnd"; "PaddingInlineStart"; "PaddingInlineEnd"],
   [(Android, (Some 131328, Some 263171), WebKit); (Chrome, (Some 262144, Some 4456448), WebKit); (Firefox, (Some 196608, Some 2621440), Moz); (IosSaf, (Some 197120, Some 786432), WebKit); (Opera, (Some 983040, Some 3604480), WebKit); (Safari, (Some 196864, Some 786432), WebKit); (Samsung, (Some 262144, Some 590336), WebKit)]);
  (["BorderBlockStart"; "BorderBlockEnd"; "MarginBlockStart"; "MarginBlockEnd"; "PaddingBlockStart"; "PaddingBlockEnd"],
   [(Android, (Some 131328, Some 263171), WebKit); (Chrome, (Some 262144, Some 4456448), WebKit); (IosSaf, (Some 197120, Some 786432), WebKit); (Opera, (Some 983040, Some 3604480), WebKit); (Safari, (Some 196864, Some 786432), WebKit); (Samsung, (Some 262144, Some 590336), WebKit)]);
  (["Appearance"],
   [(Android, (Some 131328, Some 263171), WebKit); (Chrome, (Some 262144, Some 5439488), WebKit); (Edge, (Some 786432, Some 1179648), Ms); (Edge, (Some 5177344, Some 5439488), WebKit); (Firefox, (Some 131072, Some 5177344), Moz); (IE, (None, None), Ms); (IosSaf, (Some 197120, Some 983552), WebKit); (Opera, (Some 983040, Some 4718592), WebKit); (Safari, (Some 196864, Some 983552), WebKit); (Samsung, (Some 262144, Some 851968), WebKit)]);
  (["ScrollSnapType"; "ScrollSnapCoordinate"; "ScrollSnapDestination"; "ScrollSnapPointsX"; "ScrollSnapPointsY"],
   [(Edge, (Some 786432, Some 1179648), Ms); (IE, (Some 655360, None), Ms); (IosSaf, (Some 589824, Some 656128), WebKit); (Safari, (Some 589824, Some 655616), WebKit)]);
  (["FlowInto"; "FlowFrom"; "RegionFragment"],
   [(Chrome, (Some 983040, Some 1179648), WebKit); (Edge, (Some 786432, Some 1179648), Ms); (IE, (Some 655360, None), Ms); (IosSaf, (Some 458752, Some 720896), WebKit); (Safari, (Some 393472, Some 720896), WebKit)]);
  (["ImageSet"],
   [(Android, (Some 263168, Some 263171), WebKit); (Chrome, (Some 1376256, Some 7340032), WebKit); (Edge, (Some 5177344, Some 7340032), WebKit); (IosSaf, (Some 393216, Some 590592), WebKit); (Opera, (Some 983040, Some 6422528), WebKit); (Safari, (Some 393216, Some 590080), WebKit); (Samsung, (Some 262144, Some 1441792), WebKit)]);
  (["WritingMode"],
   [(Android, (Some 196608, Some 263171), WebKit); (Chrome, (Some 524288, Some 3080192), WebKit); (IE, (Some 328960, None), Ms); (IosSaf, (Some 327680, Some 656128), WebKit); (Opera, (Some 983040, Some 2228224), WebKit); (Safari, (Some 327936, Some 655616), WebKit); (Samsung, (None, Some 262144), WebKit)]);
  (["CrossFade"],
   [(Chrome, (Some 1114112, None), WebKit); (Android, (Some 263168, None), WebKit); (Edge, (Some 5177344, None), WebKit); (IosSaf, (Some 327680, Some 590592), WebKit); (Opera, (Some 983040, None), WebKit); (Safari, (Some 327936, Some 590080), WebKit); (Samsung, (Some 262144, None), WebKit)]);
  (["PseudoClassReadOnly"; "PseudoClassReadWrite"],
   [(Firefox, (Some 196608, Some 5046272), Moz)]);
  (["TextEmphasis"; "TextEmphasisPosition"; "TextEmphasisStyle"; "TextEmphasisColor"],
   [(Android, (Some 263168, Some 263171), WebKit); (Chrome, (Some 1638400, Some 6422528), WebKit); (Edge, (Some 5177344, Some 6422528), WebKit); (Opera, (Some 983040, Some 5570560), WebKit); (Safari, (Some 393472, Some 458752), WebKit); (Samsung, (Some 262144, Some 1114112), WebKit)]);
  (["DisplayGrid"; "InlineGrid"; "GridTemplateColumns"; "GridTemplateRows"; "GridRowStart"; "GridColumnStart"; "GridRowEnd"; "GridColumnEnd"; "GridRow"; "GridColumn"; "GridArea"; "GridTemplate"; "GridTemplateAreas"; "PlaceSelf"; "GridColumnAlign"; "GridRowAlign"],
   [(Edge, (Some 786432, Some 983040), Ms); (IE, (Some 655360, None), Ms)]);
  (["TextSpacing"],
   [(Edge, (Some 786432, Some 1179648), Ms); (IE, (Some 524288, None), Ms)]);
  (["PseudoClassAnyLink"],
   [(Android, (Some 263168, Some 263171), WebKit); (Chrome, (Some 983040, Some 4194304), WebKit); (Firefox, (Some 196608, Some 3211264), Moz); (IosSaf, (Some 393216, Some 524544), WebKit); (Opera, (Some 983040, Some 3342336), WebKit); (Safari, (Some 393472, Some 524288), WebKit); (Samsung, (Some 327680, Some 524800), WebKit)]);
  (["Isolate"],
   [(Chrome, (Some 1048576, Some 3080192), WebKit); (Firefox, (Some 655360, Some 3211264), Moz); (IosSaf, (Some 393216, Some 656128), WebKit); (Opera, (Some 983040, Some 2228224), WebKit); (Safari, (Some 393216, Some 655616), WebKit)]);
  (["Plaintext"],
   [(Firefox, (Some 655360, Some 3211264), Moz); (IosSaf, (Some 393216, Some 656128), WebKit); (Safari, (Some 393216, Some 655616), WebKit)]);
  (["IsolateOverride"],
   [(Firefox, (Some 1114112, Some 3211264), Moz); (IosSaf, (Some 458752, Some 656128), WebKit); (Safari, (Some 458752, Some 655616), WebKit)]);
  (["OverscrollBehavior"],
   [(Edge, (Some 786432, Some 1114112), Ms); (IE, (Some 655360, None), Ms)]);
  (["TextOrientation"],
   [(Safari, (Some 655616, Some 852224), WebKit)]);
  (["PrintColorAdjust"; "ColorAdjust"],
   [(Android, (Some 263168, Some 263171), WebKit); (Chrome, (Some 1114112, Some 8847360), WebKit); (Edge, (Some 5177344, Some 8847360), WebKit); (Firefox, (Some 3145728, Some 6291456), Moz); (IosSaf, (Some 393216, Some 983552), WebKit); (Opera, (Some 983040, None), WebKit); (Safari, (Some 393216, Some 983552), WebKit); (Samsung, (Some 262144, Some 1835008), WebKit)]);
  (["AnyPseudo"],
   [(Chrome, (Some 786432, Some 5701632), WebKit); (Edge, (Some 5177344, Some 5701632), WebKit); (Firefox, (Some 262144, Some 5111808), Moz); (Opera, (Some 917504, Some 4784128), WebKit); (Safari, (Some 327680, Some 851968), WebKit); (IosSaf, (Some 327680, Some 851968), WebKit); (Samsung, (Some 65536, Some 917504), WebKit); (Android, (Some 263168, Some 5701632), WebKit)])
].
(** prefixes.rs:2244-2266 [is_flex_2009] *)
Definition flex_2009 : list (browser * (option N * option N)) := [(Android, (Some 131328, Some 262656)); (Chrome, (Some 262144, Some 1310720)); (IosSaf, (Some 197120, Some 393216)); (Safari, (Some 196864, Some 393216))].
(** prefixes.rs:2268-2290 [is_webkit_gradient] *)
Definition webkit_gradient : list (browser * (option N * option N)) := [(Android, (Some 131328, Some 196608)); (Chrome, (Some 262144, Some 589824)); (IosSaf, (Some 197120, Some 393216)); (Safari, (Some 262144, Some 393216))].
