(** * The property table: src/properties/mod.rs:1202-1623

    One entry per line of the [define_properties!] invocation, in order: the name, whether the
    property id carries a vendor prefix, the prefixes listed after the type and whether the
    unprefixed name is allowed ([unprefixed: false] absent).  The value types, options, shorthand
    marks and logical groups are dropped.  One entry of the source has a commented prefix list;
    only what the macro reads is kept. *)
From Coq Require Import List String.
From Verif Require Import VendorPrefixModel.
Import ListNotations.
Local Open Scope string_scope.

Definition property_table : list entry :=
 [Entry "background-color" false [] true;
  Entry "background-image" false [] true;
  Entry "background-position-x" false [] true;
  Entry "background-position-y" false [] true;
  Entry "background-position" false [] true;
  Entry "background-size" false [] true;
  Entry "background-repeat" false [] true;
  Entry "background-attachment" false [] true;
  Entry "background-clip" true [WebKit; Moz] true;
  Entry "background-origin" false [] true;
  Entry "background" false [] true;
  Entry "box-shadow" true [WebKit; Moz] true;
  Entry "opacity" false [] true;
  Entry "color" false [] true;
  Entry "display" false [] true;
  Entry "visibility" false [] true;
  Entry "width" false [] true;
  Entry "height" false [] true;
  Entry "min-width" false [] true;
  Entry "min-height" false [] true;
  Entry "max-width" false [] true;
  Entry "max-height" false [] true;
  Entry "block-size" false [] true;
  Entry "inline-size" false [] true;
  Entry "min-block-size" false [] true;
  Entry "min-inline-size" false [] true;
  Entry "max-block-size" false [] true;
  Entry "max-inline-size" false [] true;
  Entry "box-sizing" true [WebKit; Moz] true;
  Entry "aspect-ratio" false [] true;
  Entry "overflow" false [] true;
  Entry "overflow-x" false [] true;
  Entry "overflow-y" false [] true;
  Entry "text-overflow" true [Opera] true;
  Entry "position" false [] true;
  Entry "top" false [] true;
  Entry "bottom" false [] true;
  Entry "left" false [] true;
  Entry "right" false [] true;
  Entry "inset-block-start" false [] true;
  Entry "inset-block-end" false [] true;
  Entry "inset-inline-start" false [] true;
  Entry "inset-inline-end" false [] true;
  Entry "inset-block" false [] true;
  Entry "inset-inline" false [] true;
  Entry "inset" false [] true;
  Entry "border-spacing" false [] true;
  Entry "border-top-color" false [] true;
  Entry "border-bottom-color" false [] true;
  Entry "border-left-color" false [] true;
  Entry "border-right-color" false [] true;
  Entry "border-block-start-color" false [] true;
  Entry "border-block-end-color" false [] true;
  Entry "border-inline-start-color" false [] true;
  Entry "border-inline-end-color" false [] true;
  Entry "border-top-style" false [] true;
  Entry "border-bottom-style" false [] true;
  Entry "border-left-style" false [] true;
  Entry "border-right-style" false [] true;
  Entry "border-block-start-style" false [] true;
  Entry "border-block-end-style" false [] true;
  Entry "border-inline-start-style" false [] true;
  Entry "border-inline-end-style" false [] true;
  Entry "border-top-width" false [] true;
  Entry "border-bottom-width" false [] true;
  Entry "border-left-width" false [] true;
  Entry "border-right-width" false [] true;
  Entry "border-block-start-width" false [] true;
  Entry "border-block-end-width" false [] true;
  Entry "border-inline-start-width" false [] true;
  Entry "border-inline-end-width" false [] true;
  Entry "border-top-left-radius" true [WebKit; Moz] true;
  Entry "border-top-right-radius" true [WebKit; Moz] true;
  Entry "border-bottom-left-radius" true [WebKit; Moz] true;
  Entry "border-bottom-right-radius" true [WebKit; Moz] true;
  Entry "border-start-start-radius" false [] true;
  Entry "border-start-end-radius" false [] true;
  Entry "border-end-start-radius" false [] true;
  Entry "border-end-end-radius" false [] true;
  Entry "border-radius" true [WebKit; Moz] true;
  Entry "border-image-source" false [] true;
  Entry "border-image-outset" false [] true;
  Entry "border-image-repeat" false [] true;
  Entry "border-image-width" false [] true;
  Entry "border-image-slice" false [] true;
  Entry "border-image" true [WebKit; Moz; Opera] true;
  Entry "border-color" false [] true;
  Entry "border-style" false [] true;
  Entry "border-width" false [] true;
  Entry "border-block-color" false [] true;
  Entry "border-block-style" false [] true;
  Entry "border-block-width" false [] true;
  Entry "border-inline-color" false [] true;
  Entry "border-inline-style" false [] true;
  Entry "border-inline-width" false [] true;
  Entry "border" false [] true;
  Entry "border-top" false [] true;
  Entry "border-bottom" false [] true;
  Entry "border-left" false [] true;
  Entry "border-right" false [] true;
  Entry "border-block" false [] true;
  Entry "border-block-start" false [] true;
  Entry "border-block-end" false [] true;
  Entry "border-inline" false [] true;
  Entry "border-inline-start" false [] true;
  Entry "border-inline-end" false [] true;
  Entry "outline" false [] true;
  Entry "outline-color" false [] true;
  Entry "outline-style" false [] true;
  Entry "outline-width" false [] true;
  Entry "flex-direction" true [WebKit; Ms] true;
  Entry "flex-wrap" true [WebKit; Ms] true;
  Entry "flex-flow" true [WebKit; Ms] true;
  Entry "flex-grow" true [WebKit] true;
  Entry "flex-shrink" true [WebKit] true;
  Entry "flex-basis" true [WebKit] true;
  Entry "flex" true [WebKit; Ms] true;
  Entry "order" true [WebKit] true;
  Entry "align-content" true [WebKit] true;
  Entry "justify-content" true [WebKit] true;
  Entry "place-content" false [] true;
  Entry "align-self" true [WebKit] true;
  Entry "justify-self" false [] true;
  Entry "place-self" false [] true;
  Entry "align-items" true [WebKit] true;
  Entry "justify-items" false [] true;
  Entry "place-items" false [] true;
  Entry "row-gap" false [] true;
  Entry "column-gap" false [] true;
  Entry "gap" false [] true;
  Entry "box-orient" true [WebKit; Moz] false;
  Entry "box-direction" true [WebKit; Moz] false;
  Entry "box-ordinal-group" true [WebKit; Moz] false;
  Entry "box-align" true [WebKit; Moz] false;
  Entry "box-flex" true [WebKit; Moz] false;
  Entry "box-flex-group" true [WebKit] false;
  Entry "box-pack" true [WebKit; Moz] false;
  Entry "box-lines" true [WebKit; Moz] false;
  Entry "flex-pack" true [Ms] false;
  Entry "flex-order" true [Ms] false;
  Entry "flex-align" true [Ms] false;
  Entry "flex-item-align" true [Ms] false;
  Entry "flex-line-pack" true [Ms] false;
  Entry "flex-positive" true [Ms] false;
  Entry "flex-negative" true [Ms] false;
  Entry "flex-preferred-size" true [Ms] false;
  Entry "grid-template-columns" false [] true;
  Entry "grid-template-rows" false [] true;
  Entry "grid-auto-columns" false [] true;
  Entry "grid-auto-rows" false [] true;
  Entry "grid-auto-flow" false [] true;
  Entry "grid-template-areas" false [] true;
  Entry "grid-template" false [] true;
  Entry "grid" false [] true;
  Entry "grid-row-start" false [] true;
  Entry "grid-row-end" false [] true;
  Entry "grid-column-start" false [] true;
  Entry "grid-column-end" false [] true;
  Entry "grid-row" false [] true;
  Entry "grid-column" false [] true;
  Entry "grid-area" false [] true;
  Entry "margin-top" false [] true;
  Entry "margin-bottom" false [] true;
  Entry "margin-left" false [] true;
  Entry "margin-right" false [] true;
  Entry "margin-block-start" false [] true;
  Entry "margin-block-end" false [] true;
  Entry "margin-inline-start" false [] true;
  Entry "margin-inline-end" false [] true;
  Entry "margin-block" false [] true;
  Entry "margin-inline" false [] true;
  Entry "margin" false [] true;
  Entry "padding-top" false [] true;
  Entry "padding-bottom" false [] true;
  Entry "padding-left" false [] true;
  Entry "padding-right" false [] true;
  Entry "padding-block-start" false [] true;
  Entry "padding-block-end" false [] true;
  Entry "padding-inline-start" false [] true;
  Entry "padding-inline-end" false [] true;
  Entry "padding-block" false [] true;
  Entry "padding-inline" false [] true;
  Entry "padding" false [] true;
  Entry "scroll-margin-top" false [] true;
  Entry "scroll-margin-bottom" false [] true;
  Entry "scroll-margin-left" false [] true;
  Entry "scroll-margin-right" false [] true;
  Entry "scroll-margin-block-start" false [] true;
  Entry "scroll-margin-block-end" false [] true;
  Entry "scroll-margin-inline-start" false [] true;
  Entry "scroll-margin-inline-end" false [] true;
  Entry "scroll-margin-block" false [] true;
  Entry "scroll-margin-inline" false [] true;
  Entry "scroll-margin" false [] true;
  Entry "scroll-padding-top" false [] true;
  Entry "scroll-padding-bottom" false [] true;
  Entry "scroll-padding-left" false [] true;
  Entry "scroll-padding-right" false [] true;
  Entry "scroll-padding-block-start" false [] true;
  Entry "scroll-padding-block-end" false [] true;
  Entry "scroll-padding-inline-start" false [] true;
  Entry "scroll-padding-inline-end" false [] true;
  Entry "scroll-padding-block" false [] true;
  Entry "scroll-padding-inline" false [] true;
  Entry "scroll-padding" false [] true;
  Entry "font-weight" false [] true;
  Entry "font-size" false [] true;
  Entry "font-stretch" false [] true;
  Entry "font-family" false [] true;
  Entry "font-style" false [] true;
  Entry "font-variant-caps" false [] true;
  Entry "line-height" false [] true;
  Entry "font" false [] true;
  Entry "vertical-align" false [] true;
  Entry "font-palette" false [] true;
  Entry "transition-property" true [WebKit; Moz; Ms] true;
  Entry "transition-duration" true [WebKit; Moz; Ms] true;
  Entry "transition-delay" true [WebKit; Moz; Ms] true;
  Entry "transition-timing-function" true [WebKit; Moz; Ms] true;
  Entry "transition" true [WebKit; Moz; Ms] true;
  Entry "animation-name" true [WebKit; Moz; Opera] true;
  Entry "animation-duration" true [WebKit; Moz; Opera] true;
  Entry "animation-timing-function" true [WebKit; Moz; Opera] true;
  Entry "animation-iteration-count" true [WebKit; Moz; Opera] true;
  Entry "animation-direction" true [WebKit; Moz; Opera] true;
  Entry "animation-play-state" true [WebKit; Moz; Opera] true;
  Entry "animation-delay" true [WebKit; Moz; Opera] true;
  Entry "animation-fill-mode" true [WebKit; Moz; Opera] true;
  Entry "animation-composition" false [] true;
  Entry "animation-timeline" false [] true;
  Entry "animation-range-start" false [] true;
  Entry "animation-range-end" false [] true;
  Entry "animation-range" false [] true;
  Entry "animation" true [WebKit; Moz; Opera] true;
  Entry "transform" true [WebKit; Moz; Ms; Opera] true;
  Entry "transform-origin" true [WebKit; Moz; Ms; Opera] true;
  Entry "transform-style" true [WebKit; Moz] true;
  Entry "transform-box" false [] true;
  Entry "backface-visibility" true [WebKit; Moz] true;
  Entry "perspective" true [WebKit; Moz] true;
  Entry "perspective-origin" true [WebKit; Moz] true;
  Entry "translate" false [] true;
  Entry "rotate" false [] true;
  Entry "scale" false [] true;
  Entry "text-transform" false [] true;
  Entry "white-space" false [] true;
  Entry "tab-size" true [Moz; Opera] true;
  Entry "word-break" false [] true;
  Entry "line-break" false [] true;
  Entry "hyphens" true [WebKit; Moz; Ms] true;
  Entry "overflow-wrap" false [] true;
  Entry "word-wrap" false [] true;
  Entry "text-align" false [] true;
  Entry "text-align-last" true [Moz] true;
  Entry "text-justify" false [] true;
  Entry "word-spacing" false [] true;
  Entry "letter-spacing" false [] true;
  Entry "text-indent" false [] true;
  Entry "text-decoration-line" true [WebKit; Moz] true;
  Entry "text-decoration-style" true [WebKit; Moz] true;
  Entry "text-decoration-color" true [WebKit; Moz] true;
  Entry "text-decoration-thickness" false [] true;
  Entry "text-decoration" true [WebKit; Moz] true;
  Entry "text-decoration-skip-ink" true [WebKit] true;
  Entry "text-emphasis-style" true [WebKit] true;
  Entry "text-emphasis-color" true [WebKit] true;
  Entry "text-emphasis" true [WebKit] true;
  Entry "text-emphasis-position" true [WebKit] true;
  Entry "text-shadow" false [] true;
  Entry "text-size-adjust" true [WebKit; Moz; Ms] true;
  Entry "direction" false [] true;
  Entry "unicode-bidi" false [] true;
  Entry "box-decoration-break" true [WebKit] true;
  Entry "resize" false [] true;
  Entry "cursor" false [] true;
  Entry "caret-color" false [] true;
  Entry "caret-shape" false [] true;
  Entry "caret" false [] true;
  Entry "user-select" true [WebKit; Moz; Ms] true;
  Entry "accent-color" false [] true;
  Entry "appearance" true [WebKit; Moz; Ms] true;
  Entry "list-style-type" false [] true;
  Entry "list-style-image" false [] true;
  Entry "list-style-position" false [] true;
  Entry "list-style" false [] true;
  Entry "marker-side" false [] true;
  Entry "composes" false [] true;
  Entry "fill" false [] true;
  Entry "fill-rule" false [] true;
  Entry "fill-opacity" false [] true;
  Entry "stroke" false [] true;
  Entry "stroke-opacity" false [] true;
  Entry "stroke-width" false [] true;
  Entry "stroke-linecap" false [] true;
  Entry "stroke-linejoin" false [] true;
  Entry "stroke-miterlimit" false [] true;
  Entry "stroke-dasharray" false [] true;
  Entry "stroke-dashoffset" false [] true;
  Entry "marker-start" false [] true;
  Entry "marker-mid" false [] true;
  Entry "marker-end" false [] true;
  Entry "marker" false [] true;
  Entry "color-interpolation" false [] true;
  Entry "color-interpolation-filters" false [] true;
  Entry "color-rendering" false [] true;
  Entry "shape-rendering" false [] true;
  Entry "text-rendering" false [] true;
  Entry "image-rendering" false [] true;
  Entry "clip-path" true [WebKit] true;
  Entry "clip-rule" false [] true;
  Entry "mask-image" true [WebKit] true;
  Entry "mask-mode" false [] true;
  Entry "mask-repeat" true [WebKit] true;
  Entry "mask-position-x" false [] true;
  Entry "mask-position-y" false [] true;
  Entry "mask-position" true [WebKit] true;
  Entry "mask-clip" true [WebKit] true;
  Entry "mask-origin" true [WebKit] true;
  Entry "mask-size" true [WebKit] true;
  Entry "mask-composite" false [] true;
  Entry "mask-type" false [] true;
  Entry "mask" true [WebKit] true;
  Entry "mask-border-source" false [] true;
  Entry "mask-border-mode" false [] true;
  Entry "mask-border-slice" false [] true;
  Entry "mask-border-width" false [] true;
  Entry "mask-border-outset" false [] true;
  Entry "mask-border-repeat" false [] true;
  Entry "mask-border" false [] true;
  Entry "-webkit-mask-composite" false [] true;
  Entry "mask-source-type" true [WebKit] false;
  Entry "mask-box-image" true [WebKit] false;
  Entry "mask-box-image-source" true [WebKit] false;
  Entry "mask-box-image-slice" true [WebKit] false;
  Entry "mask-box-image-width" true [WebKit] false;
  Entry "mask-box-image-outset" true [WebKit] false;
  Entry "mask-box-image-repeat" true [WebKit] false;
  Entry "filter" true [WebKit] true;
  Entry "backdrop-filter" true [WebKit] true;
  Entry "mix-blend-mode" false [] true;
  Entry "z-index" false [] true;
  Entry "container-type" false [] true;
  Entry "container-name" false [] true;
  Entry "container" false [] true;
  Entry "view-transition-name" false [] true;
  Entry "view-transition-class" false [] true;
  Entry "view-transition-group" false [] true;
  Entry "color-scheme" false [] true;
  Entry "print-color-adjust" true [WebKit] true].
