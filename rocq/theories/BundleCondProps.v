(** * C12 for the media lists and supports conditions of the code *)
From Coq Require Import List Bool.
From Verif Require Import MediaModel MediaSpec BundleModel BundleSpec BundleMainProofs.
From Verif Require SupportsModel SupportsSpec SupportsProofs.
Import ListNotations.

(** The operations the bundler uses are exact: [MediaList::and] and [or] on lists of one media type
    and [SupportsCondition::and] and [or] in every browser. *)
Theorem C12_operations_exact : forall t e B,
    exact_ops [] mlist_empty list_and list_or SupportsModel.s_and SupportsModel.s_or (one_type t) (list_matches e)
      (SupportsSpec.holds B).
Proof.
  exact (fun t e B => @media_exact _ _ _ t e (SupportsSpec.holds B) (SupportsProofs.s_and_holds B) (SupportsProofs.s_or_holds B)).
Qed.
Print Assumptions C12_operations_exact.
