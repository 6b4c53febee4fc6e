(** * Concrete declaration blocks *)
From Coq Require Import List Bool String.
From Verif Require Import MediaModel VendorPrefixModel PropertyTable DeclTextModel DeclTextSpec.
Import ListNotations.
Local Open Scope string_scope.
Local Open Scope list_scope.

(** A grammar where every property takes one name *)
Definition one_name (n : string) (l : list tk) : option string :=
  match filter (fun t => negb (is_blank t)) l with [KIdent s] => Some s | _ => None end.
Definition show_name (minify : bool) (n : string) (s : string) : list tk := [KIdent s].

(** [color: red; --x: var(--y, {a}) !important; -webkit-transition: foo, calc( 1 )] *)
Definition sample : list tk :=
  [KIdent "color"; KColon; KWs " "; KIdent "red"; KSemi; KWs " ";
   KIdent "--x"; KColon; KWs " "; KFun "var" [KIdent "--y"; KComma; KWs " "; KBlock Curly [KIdent "a"]]; KWs " "; KBang; KIdent "important"; KSemi; KWs " ";
   KIdent "-webkit-transition"; KColon; KWs " "; KIdent "foo"; KComma; KWs "  "; KFun "calc" [KWs " "; KOther "1"; KWs " "]].
Definition sample_block : dblock string :=
  DBlock [DCustom "--x" [VRef "var" "--y" (Some [VBlock Curly [VTok (KIdent "a")]])]]
         [DTyped (PPlain "color") "red";
          DUnparsed (PVp "transition" (vs_one WebKit))
            [VTok (KIdent "foo"); VTok KComma; VTok (KWs "  "); VFun "calc" [VTok (KOther "1")]]].
(** One declaration with three prefixes *)
Definition prefixed : dblock string :=
  DBlock [] [DTyped (PVp "transition" (vs_or (vs_one WebKit) (vs_or (vs_one Moz) (vs_one Unprefixed)))) "none"; DTyped (PPlain "color") "red"].
Definition with_composes : dblock string :=
  DBlock [] [DTyped (PPlain "composes") "a"; DTyped (PPlain "color") "red"].

Lemma filter_blank l : blank l -> filter (fun t => negb (is_blank t)) l = [].
Proof.
  induction l as [|t r IH]; intros H; [reflexivity|]. cbn [filter]. rewrite (H t (or_introl eq_refl)). cbn [negb]. apply IH.
  intros u Hu. apply H. right. exact Hu.
Qed.
Lemma one_name_pad n w l w' : blank w -> blank w' -> one_name n (w ++ l ++ w') = one_name n l.
Proof. intros H1 H2. unfold one_name. rewrite !filter_app, (filter_blank w H1), (filter_blank w' H2), app_nil_r. reflexivity. Qed.
Lemma name_readable m n s : readable string one_name show_name m n s.
Proof.
  split; [|intros w w' H1 H2; rewrite one_name_pad by assumption; reflexivity].
  split; [reflexivity|]. split; [intros t [<-|[]]; repeat split; discriminate|]. split; exists (KIdent s), []; auto.
Qed.
Lemma sample_answered m : answered_block string one_name show_name m sample_block.
Proof.
  split; cbn [sample_block d_normal d_important].
  - intros d [<-|[<-|[]]].
    + split; [destruct m; exact I | apply name_readable].
    + split; [destruct m; [exact I | split; [discriminate | intros [s H]; discriminate H]]|].
      split; [destruct m; reflexivity|]. intros w w' H1 H2. rewrite one_name_pad by assumption. destruct m; reflexivity.
  - intros d [<-|[]]. split; [destruct m; [exact I | split; [discriminate | intros [s H]; discriminate H]] | destruct m; reflexivity].
Qed.
Lemma prefixed_printable m : printable_block string one_name show_name m prefixed.
Proof.
  split; cbn [prefixed d_normal d_important]; [|intros ? []].
  intros d [<-|[<-|[]]].
  - split; [|split; [destruct m; exact I | split; [apply name_readable | discriminate]]].
    cbn [decl_id known]. intros q [<-|[<-|[<-|[]]]]; vm_compute; reflexivity.
  - split; [vm_compute; reflexivity | split; [destruct m; exact I | split; [apply name_readable | discriminate]]].
Qed.
Lemma composes_printable m : printable_block string one_name show_name m with_composes.
Proof.
  split; cbn [with_composes d_normal d_important]; [|intros ? []].
  intros d [<-|[<-|[]]]; (split; [vm_compute; reflexivity | split; [destruct m; exact I | split; [apply name_readable | discriminate]]]).
Qed.
