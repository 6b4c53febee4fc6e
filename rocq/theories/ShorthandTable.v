(** * Shorthands and logical groups, generated from the macro invocations in src/properties.

    [shorthand_table]: one entry per line of the [define_properties!] table (properties/mod.rs:1202-1623)
    marked [shorthand: true], in order, with the fields of the [impl_shorthand!], [define_shorthand!],
    [define_list_shorthand!], [rect_shorthand!] and [size_shorthand!] invocations (align.rs, animation.rs,
    background.rs, border.rs, border_image.rs, border_radius.rs, contain.rs, flex.rs, font.rs, grid.rs,
    list.rs, margin_padding.rs, masking.rs, outline.rs, overflow.rs, text.rs, transition.rs, ui.rs) and of
    the hand-written implementation for [background] (background.rs:556-768).
    [logical_table]: the [logical_group] and [category] marks of the same table. *)
From Coq Require Import List String.
Import ListNotations.
Local Open Scope string_scope.

(** A longhand of a shorthand: its name and whether its id carries a vendor prefix *)
Record lh := Lh { lh_name : string; lh_vp : bool }.
(** How the [Shorthand] trait is implemented: macros.rs:366-555 [impl_shorthand!], macros.rs:559-717
    [define_list_shorthand!], background.rs:556-768 *)
Inductive kind := KPlain | KList | KBackground.
(** A shorthand: its name, whether its id carries a vendor prefix, and for every field of the value
    the longhands it stands for *)
Record sh := Sh { sh_name : string; sh_vp : bool; sh_kind : kind; sh_keys : list (list lh) }.

Definition shorthand_table : list sh :=
 [Sh "background-position" false KList [[Lh "background-position-x" false]; [Lh "background-position-y" false]];
  Sh "background" false KBackground [[Lh "background-color" false]; [Lh "background-image" false]; [Lh "background-position-x" false]; [Lh "background-position-y" false]; [Lh "background-repeat" false]; [Lh "background-size" false]; [Lh "background-attachment" false]; [Lh "background-origin" false]; [Lh "background-clip" true]];
  Sh "overflow" false KPlain [[Lh "overflow-x" false]; [Lh "overflow-y" false]];
  Sh "inset-block" false KPlain [[Lh "inset-block-start" false]; [Lh "inset-block-end" false]];
  Sh "inset-inline" false KPlain [[Lh "inset-inline-start" false]; [Lh "inset-inline-end" false]];
  Sh "inset" false KPlain [[Lh "top" false]; [Lh "right" false]; [Lh "bottom" false]; [Lh "left" false]];
  Sh "border-radius" true KPlain [[Lh "border-top-left-radius" true]; [Lh "border-top-right-radius" true]; [Lh "border-bottom-right-radius" true]; [Lh "border-bottom-left-radius" true]];
  Sh "border-image" true KPlain [[Lh "border-image-source" false]; [Lh "border-image-slice" false]; [Lh "border-image-width" false]; [Lh "border-image-outset" false]; [Lh "border-image-repeat" false]];
  Sh "border-color" false KPlain [[Lh "border-top-color" false]; [Lh "border-right-color" false]; [Lh "border-bottom-color" false]; [Lh "border-left-color" false]];
  Sh "border-style" false KPlain [[Lh "border-top-style" false]; [Lh "border-right-style" false]; [Lh "border-bottom-style" false]; [Lh "border-left-style" false]];
  Sh "border-width" false KPlain [[Lh "border-top-width" false]; [Lh "border-right-width" false]; [Lh "border-bottom-width" false]; [Lh "border-left-width" false]];
  Sh "border-block-color" false KPlain [[Lh "border-block-start-color" false]; [Lh "border-block-end-color" false]];
  Sh "border-block-style" false KPlain [[Lh "border-block-start-style" false]; [Lh "border-block-end-style" false]];
  Sh "border-block-width" false KPlain [[Lh "border-block-start-width" false]; [Lh "border-block-end-width" false]];
  Sh "border-inline-color" false KPlain [[Lh "border-inline-start-color" false]; [Lh "border-inline-end-color" false]];
  Sh "border-inline-style" false KPlain [[Lh "border-inline-start-style" false]; [Lh "border-inline-end-style" false]];
  Sh "border-inline-width" false KPlain [[Lh "border-inline-start-width" false]; [Lh "border-inline-end-width" false]];
  Sh "border" false KPlain [[Lh "border-top-width" false; Lh "border-right-width" false; Lh "border-bottom-width" false; Lh "border-left-width" false]; [Lh "border-top-style" false; Lh "border-right-style" false; Lh "border-bottom-style" false; Lh "border-left-style" false]; [Lh "border-top-color" false; Lh "border-right-color" false; Lh "border-bottom-color" false; Lh "border-left-color" false]];
  Sh "border-top" false KPlain [[Lh "border-top-width" false]; [Lh "border-top-style" false]; [Lh "border-top-color" false]];
  Sh "border-bottom" false KPlain [[Lh "border-bottom-width" false]; [Lh "border-bottom-style" false]; [Lh "border-bottom-color" false]];
  Sh "border-left" false KPlain [[Lh "border-left-width" false]; [Lh "border-left-style" false]; [Lh "border-left-color" false]];
  Sh "border-right" false KPlain [[Lh "border-right-width" false]; [Lh "border-right-style" false]; [Lh "border-right-color" false]];
  Sh "border-block" false KPlain [[Lh "border-block-start-width" false; Lh "border-block-end-width" false]; [Lh "border-block-start-style" false; Lh "border-block-end-style" false]; [Lh "border-block-start-color" false; Lh "border-block-end-color" false]];
  Sh "border-block-start" false KPlain [[Lh "border-block-start-width" false]; [Lh "border-block-start-style" false]; [Lh "border-block-start-color" false]];
  Sh "border-block-end" false KPlain [[Lh "border-block-end-width" false]; [Lh "border-block-end-style" false]; [Lh "border-block-end-color" false]];
  Sh "border-inline" false KPlain [[Lh "border-inline-start-width" false; Lh "border-inline-end-width" false]; [Lh "border-inline-start-style" false; Lh "border-inline-end-style" false]; [Lh "border-inline-start-color" false; Lh "border-inline-end-color" false]];
  Sh "border-inline-start" false KPlain [[Lh "border-inline-start-width" false]; [Lh "border-inline-start-style" false]; [Lh "border-inline-start-color" false]];
  Sh "border-inline-end" false KPlain [[Lh "border-inline-end-width" false]; [Lh "border-inline-end-style" false]; [Lh "border-inline-end-color" false]];
  Sh "outline" false KPlain [[Lh "outline-width" false]; [Lh "outline-style" false]; [Lh "outline-color" false]];
  Sh "flex-flow" true KPlain [[Lh "flex-direction" true]; [Lh "flex-wrap" true]];
  Sh "flex" true KPlain [[Lh "flex-grow" true]; [Lh "flex-shrink" true]; [Lh "flex-basis" true]];
  Sh "place-content" false KPlain [[Lh "align-content" true]; [Lh "justify-content" true]];
  Sh "place-self" false KPlain [[Lh "align-self" true]; [Lh "justify-self" false]];
  Sh "place-items" false KPlain [[Lh "align-items" true]; [Lh "justify-items" false]];
  Sh "gap" false KPlain [[Lh "row-gap" false]; [Lh "column-gap" false]];
  Sh "grid-template" false KPlain [[Lh "grid-template-rows" false]; [Lh "grid-template-columns" false]; [Lh "grid-template-areas" false]];
  Sh "grid" false KPlain [[Lh "grid-template-rows" false]; [Lh "grid-template-columns" false]; [Lh "grid-template-areas" false]; [Lh "grid-auto-rows" false]; [Lh "grid-auto-columns" false]; [Lh "grid-auto-flow" false]];
  Sh "grid-row" false KPlain [[Lh "grid-row-start" false]; [Lh "grid-row-end" false]];
  Sh "grid-column" false KPlain [[Lh "grid-column-start" false]; [Lh "grid-column-end" false]];
  Sh "grid-area" false KPlain [[Lh "grid-row-start" false]; [Lh "grid-column-start" false]; [Lh "grid-row-end" false]; [Lh "grid-column-end" false]];
  Sh "margin-block" false KPlain [[Lh "margin-block-start" false]; [Lh "margin-block-end" false]];
  Sh "margin-inline" false KPlain [[Lh "margin-inline-start" false]; [Lh "margin-inline-end" false]];
  Sh "margin" false KPlain [[Lh "margin-top" false]; [Lh "margin-right" false]; [Lh "margin-bottom" false]; [Lh "margin-left" false]];
  Sh "padding-block" false KPlain [[Lh "padding-block-start" false]; [Lh "padding-block-end" false]];
  Sh "padding-inline" false KPlain [[Lh "padding-inline-start" false]; [Lh "padding-inline-end" false]];
  Sh "padding" false KPlain [[Lh "padding-top" false]; [Lh "padding-right" false]; [Lh "padding-bottom" false]; [Lh "padding-left" false]];
  Sh "scroll-margin-block" false KPlain [[Lh "scroll-margin-block-start" false]; [Lh "scroll-margin-block-end" false]];
  Sh "scroll-margin-inline" false KPlain [[Lh "scroll-margin-inline-start" false]; [Lh "scroll-margin-inline-end" false]];
  Sh "scroll-margin" false KPlain [[Lh "scroll-margin-top" false]; [Lh "scroll-margin-right" false]; [Lh "scroll-margin-bottom" false]; [Lh "scroll-margin-left" false]];
  Sh "scroll-padding-block" false KPlain [[Lh "scroll-padding-block-start" false]; [Lh "scroll-padding-block-end" false]];
  Sh "scroll-padding-inline" false KPlain [[Lh "scroll-padding-inline-start" false]; [Lh "scroll-padding-inline-end" false]];
  Sh "scroll-padding" false KPlain [[Lh "scroll-padding-top" false]; [Lh "scroll-padding-right" false]; [Lh "scroll-padding-bottom" false]; [Lh "scroll-padding-left" false]];
  Sh "font" false KPlain [[Lh "font-family" false]; [Lh "font-size" false]; [Lh "font-style" false]; [Lh "font-weight" false]; [Lh "font-stretch" false]; [Lh "line-height" false]; [Lh "font-variant-caps" false]];
  Sh "transition" true KList [[Lh "transition-property" true]; [Lh "transition-duration" true]; [Lh "transition-delay" true]; [Lh "transition-timing-function" true]];
  Sh "animation" true KList [[Lh "animation-name" true]; [Lh "animation-duration" true]; [Lh "animation-timing-function" true]; [Lh "animation-iteration-count" true]; [Lh "animation-direction" true]; [Lh "animation-play-state" true]; [Lh "animation-delay" true]; [Lh "animation-fill-mode" true]; [Lh "animation-timeline" false]];
  Sh "text-decoration" true KPlain [[Lh "text-decoration-line" true]; [Lh "text-decoration-thickness" false]; [Lh "text-decoration-style" true]; [Lh "text-decoration-color" true]];
  Sh "text-emphasis" true KPlain [[Lh "text-emphasis-style" true]; [Lh "text-emphasis-color" true]];
  Sh "caret" false KPlain [[Lh "caret-color" false]; [Lh "caret-shape" false]];
  Sh "list-style" false KPlain [[Lh "list-style-position" false]; [Lh "list-style-image" false]; [Lh "list-style-type" false]];
  Sh "mask" true KList [[Lh "mask-image" true]; [Lh "mask-position" true]; [Lh "mask-size" true]; [Lh "mask-repeat" true]; [Lh "mask-clip" true]; [Lh "mask-origin" true]; [Lh "mask-composite" false]; [Lh "mask-mode" false]];
  Sh "mask-border" false KPlain [[Lh "mask-border-source" false]; [Lh "mask-border-slice" false]; [Lh "mask-border-width" false]; [Lh "mask-border-outset" false]; [Lh "mask-border-repeat" false]; [Lh "mask-border-mode" false]];
  Sh "container" false KPlain [[Lh "container-name" false]; [Lh "container-type" false]]].

(** logical.rs *)
Inductive lgroup := GSize | GMinSize | GMaxSize | GInset | GBorderColor | GBorderStyle | GBorderWidth | GBorderRadius | GMargin | GPadding | GScrollMargin | GScrollPadding.
Inductive category := Logical | Physical.

Definition logical_table : list (string * (lgroup * category)) :=
 [("width", (GSize, Physical));
  ("height", (GSize, Physical));
  ("min-width", (GMinSize, Physical));
  ("min-height", (GMinSize, Physical));
  ("max-width", (GMaxSize, Physical));
  ("max-height", (GMaxSize, Physical));
  ("block-size", (GSize, Logical));
  ("inline-size", (GSize, Logical));
  ("min-block-size", (GMinSize, Logical));
  ("min-inline-size", (GMinSize, Logical));
  ("max-block-size", (GMaxSize, Logical));
  ("max-inline-size", (GMaxSize, Logical));
  ("top", (GInset, Physical));
  ("bottom", (GInset, Physical));
  ("left", (GInset, Physical));
  ("right", (GInset, Physical));
  ("inset-block-start", (GInset, Logical));
  ("inset-block-end", (GInset, Logical));
  ("inset-inline-start", (GInset, Logical));
  ("inset-inline-end", (GInset, Logical));
  ("border-top-color", (GBorderColor, Physical));
  ("border-bottom-color", (GBorderColor, Physical));
  ("border-left-color", (GBorderColor, Physical));
  ("border-right-color", (GBorderColor, Physical));
  ("border-block-start-color", (GBorderColor, Logical));
  ("border-block-end-color", (GBorderColor, Logical));
  ("border-inline-start-color", (GBorderColor, Logical));
  ("border-inline-end-color", (GBorderColor, Logical));
  ("border-top-style", (GBorderStyle, Physical));
  ("border-bottom-style", (GBorderStyle, Physical));
  ("border-left-style", (GBorderStyle, Physical));
  ("border-right-style", (GBorderStyle, Physical));
  ("border-block-start-style", (GBorderStyle, Logical));
  ("border-block-end-style", (GBorderStyle, Logical));
  ("border-inline-start-style", (GBorderStyle, Logical));
  ("border-inline-end-style", (GBorderStyle, Logical));
  ("border-top-width", (GBorderWidth, Physical));
  ("border-bottom-width", (GBorderWidth, Physical));
  ("border-left-width", (GBorderWidth, Physical));
  ("border-right-width", (GBorderWidth, Physical));
  ("border-block-start-width", (GBorderWidth, Logical));
  ("border-block-end-width", (GBorderWidth, Logical));
  ("border-inline-start-width", (GBorderWidth, Logical));
  ("border-inline-end-width", (GBorderWidth, Logical));
  ("border-top-left-radius", (GBorderRadius, Physical));
  ("border-top-right-radius", (GBorderRadius, Physical));
  ("border-bottom-left-radius", (GBorderRadius, Physical));
  ("border-bottom-right-radius", (GBorderRadius, Physical));
  ("border-start-start-radius", (GBorderRadius, Logical));
  ("border-start-end-radius", (GBorderRadius, Logical));
  ("border-end-start-radius", (GBorderRadius, Logical));
  ("border-end-end-radius", (GBorderRadius, Logical));
  ("margin-top", (GMargin, Physical));
  ("margin-bottom", (GMargin, Physical));
  ("margin-left", (GMargin, Physical));
  ("margin-right", (GMargin, Physical));
  ("margin-block-start", (GMargin, Logical));
  ("margin-block-end", (GMargin, Logical));
  ("margin-inline-start", (GMargin, Logical));
  ("margin-inline-end", (GMargin, Logical));
  ("padding-top", (GPadding, Physical));
  ("padding-bottom", (GPadding, Physical));
  ("padding-left", (GPadding, Physical));
  ("padding-right", (GPadding, Physical));
  ("padding-block-start", (GPadding, Logical));
  ("padding-block-end", (GPadding, Logical));
  ("padding-inline-start", (GPadding, Logical));
  ("padding-inline-end", (GPadding, Logical));
  ("scroll-margin-top", (GScrollMargin, Physical));
  ("scroll-margin-bottom", (GScrollMargin, Physical));
  ("scroll-margin-left", (GScrollMargin, Physical));
  ("scroll-margin-right", (GScrollMargin, Physical));
  ("scroll-margin-block-start", (GScrollMargin, Logical));
  ("scroll-margin-block-end", (GScrollMargin, Logical));
  ("scroll-margin-inline-start", (GScrollMargin, Logical));
  ("scroll-margin-inline-end", (GScrollMargin, Logical));
  ("scroll-padding-top", (GScrollPadding, Physical));
  ("scroll-padding-bottom", (GScrollPadding, Physical));
  ("scroll-padding-left", (GScrollPadding, Physical));
  ("scroll-padding-right", (GScrollPadding, Physical));
  ("scroll-padding-block-start", (GScrollPadding, Logical));
  ("scroll-padding-block-end", (GScrollPadding, Logical));
  ("scroll-padding-inline-start", (GScrollPadding, Logical));
  ("scroll-padding-inline-end", (GScrollPadding, Logical))].
