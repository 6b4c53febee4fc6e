(** * C23-C27, C50: the printer and CSS modules *)
From Coq Require Import List Bool String Ascii PeanoNat NArith Lia.
From Verif Require Import IdentModel IdentSpec IdentProofs PatternModel PatternSpec PatternProofs.
From Verif Require Import PrinterModel PrinterSpec PrinterPosProofs PrinterLayoutProofs PrinterNameProofs PrinterExamples.
Import ListNotations.
Local Open Scope string_scope.
Local Open Scope list_scope.

(** ** C23: naming patterns *)

(** An accepted pattern yields its text with the placeholders replaced. *)
Theorem C23_written : forall s l hash stem local content,
  parse_pattern s = Some (inl l) ->
  filled (values hash stem local content) s (pattern_string l "" hash stem local content).
Proof. exact pattern_written. Qed.
Print Assumptions C23_written.
(** The result is the only such text. *)
Theorem C23_unique : forall v s o, filled v s o -> forall o', filled v s o' -> o = o'.
Proof. exact filled_fun. Qed.
Print Assumptions C23_unique.
(** Exactly the patterns with a meaning are accepted. *)
Theorem C23_accepted : forall s v, (exists l, parse_pattern s = Some (inl l)) <-> (exists o, filled v s o).
Proof. exact pattern_accepted. Qed.
Print Assumptions C23_accepted.
(** The errors name the text and the place that is wrong. *)
Theorem C23_unknown : forall s t i, parse_pattern s = Some (inr (UnknownPlaceholder t i)) ->
  (exists a b, s = (a ++ t ++ b)%string /\ i = String.length a) /\
  (exists m, t = ("[" ++ m ++ "]")%string /\ occurs "]" m = false) /\ ~ is_slot_text t.
Proof. exact pattern_unknown. Qed.
Print Assumptions C23_unknown.
Theorem C23_unclosed : forall s i, parse_pattern s = Some (inr (UnclosedBrackets i)) ->
  exists a b, s = (a ++ "[" ++ b)%string /\ i = String.length a /\ occurs "]" b = false.
Proof. exact pattern_unclosed. Qed.
Print Assumptions C23_unclosed.
Theorem C23_total : forall s, parse_pattern s <> None.
Proof. exact pattern_total. Qed.
Print Assumptions C23_total.
Example C23_example :
  parse_pattern "x-[name]_[local]]" = Some (inl [SLiteral "x-"; SName; SLiteral "_"; SLocal; SLiteral "]"])
  /\ pattern_string [SLiteral "x-"; SName; SLiteral "_"; SLocal; SLiteral "]"] "" "h" "a.b" "l" "" = "x-a-b_l]"
  /\ parse_pattern "a[b]" = Some (inr (UnknownPlaceholder "[b]" 1))
  /\ parse_pattern "[local]a[" = Some (inr (UnclosedBrackets 8)).
Proof. vm_compute. auto. Qed.
(** The empty pattern is accepted, and using it panics. *)
Theorem C23_empty_panics : parse_pattern "" = Some (inl []) /\
  forall hash32 minify remap a b c d e sources s p,
    run_op hash32 minify (Some (mkconfig [] a b c d e, sources)) remap (Site ClassName s) p = Panicked.
Proof.
  split; [reflexivity|]. intros. cbn [run_op write_site write_ident pieces]. unfold pieces. cbn [fst snd cf_pattern hash_at_start].
  destruct (nth_error sources _); reflexivity.
Qed.
Print Assumptions C23_empty_panics.

(** ** C24: the export map *)

(** A local name has an entry exactly if it was printed somewhere in its file.  The entry has the
    name the pattern gives, and is marked exactly if it was referenced.  Missing: names that start
    with two dashes in a place for other names, and configurations with some options off; both are
    refuted below. *)
Theorem C24_map_partial : forall hash32 minify cfg sources remap pat,
  parse_pattern pat = Some (inl (cf_pattern cfg)) -> no_nul pat = true ->
  Forall (clean_source pat) sources -> all_on cfg ->
  forall l p, forallb ordinary l = true ->
  run hash32 minify (Some (cfg, sources)) remap l new_printer = Fine p ->
  forall i s,
    (ex_get (p_exports p) (i, s) <> None <-> occurs_op (exporting (cf_dashed cfg)) l 0 (i, s)) /\
    (forall e, ex_get (p_exports p) (i, s) = Some e ->
       public hash32 pat sources i s (ex_name e) /\
       (ex_referenced e = true <-> occurs_op (referring (cf_dashed cfg)) l 0 (i, s))).
Proof. exact export_map. Qed.
Print Assumptions C24_map_partial.
(** Wherever the name occurs, what is printed reads as the exported name. *)
Theorem C24_printed_partial : forall hash32 minify cfg sources remap pat,
  parse_pattern pat = Some (inl (cf_pattern cfg)) -> no_nul pat = true ->
  Forall (clean_source pat) sources -> all_on cfg ->
  forall l1 k s l2 p, forallb ordinary (l1 ++ Site k s :: l2) = true ->
  run hash32 minify (Some (cfg, sources)) remap (l1 ++ Site k s :: l2) new_printer = Fine p ->
  exists p1 p2 e, run hash32 minify (Some (cfg, sources)) remap l1 new_printer = Fine p1 /\
    run_op hash32 minify (Some (cfg, sources)) remap (Site k s) p1 = Fine p2 /\
    ex_get (p_exports p) (source_after l1 0, s) = Some e /\ prints (sigil k) (ex_name e) p1 p2.
Proof. exact site_name. Qed.
Print Assumptions C24_printed_partial.
(** The same for custom properties and other dashed names. *)
Theorem C24_dashed_partial : forall hash32 minify cfg sources remap pat,
  parse_pattern pat = Some (inl (cf_pattern cfg)) -> no_nul pat = true ->
  Forall (clean_source pat) sources -> all_on cfg ->
  forall l1 s l2 p, cf_dashed cfg = true -> forallb ordinary (l1 ++ Dashed s :: l2) = true ->
  run hash32 minify (Some (cfg, sources)) remap (l1 ++ Dashed s :: l2) new_printer = Fine p ->
  exists p1 p2 e, run hash32 minify (Some (cfg, sources)) remap l1 new_printer = Fine p1 /\
    run_op hash32 minify (Some (cfg, sources)) remap (Dashed s) p1 = Fine p2 /\
    ex_get (p_exports p) (source_after l1 0, s) = Some e /\ prints "" (ex_name e) p1 p2.
Proof. exact dashed_name. Qed.
Print Assumptions C24_dashed_partial.
Theorem C24_dashed_reference_partial : forall hash32 minify cfg sources remap pat,
  parse_pattern pat = Some (inl (cf_pattern cfg)) -> no_nul pat = true ->
  Forall (clean_source pat) sources -> all_on cfg ->
  forall l1 s l2 p, cf_dashed cfg = true -> forallb ordinary (l1 ++ DashedRef s None :: l2) = true ->
  run hash32 minify (Some (cfg, sources)) remap (l1 ++ DashedRef s None :: l2) new_printer = Fine p ->
  exists p1 p2 e, run hash32 minify (Some (cfg, sources)) remap l1 new_printer = Fine p1 /\
    run_op hash32 minify (Some (cfg, sources)) remap (DashedRef s None) p1 = Fine p2 /\
    ex_get (p_exports p) (source_after l1 0, s) = Some e /\ prints "" (ex_name e) p1 p2.
Proof. exact dashed_ref_name. Qed.
Print Assumptions C24_dashed_reference_partial.
(** A reference to a name of another file prints a name that the references map translates back,
    unless another reference has the same hashed text. *)
Theorem C24_file_reference_partial : forall hash32 minify cfg sources remap pat,
  parse_pattern pat = Some (inl (cf_pattern cfg)) -> no_nul pat = true ->
  Forall (clean_source pat) sources -> all_on cfg ->
  forall l1 s f l2 p so, cf_dashed cfg = true ->
  forallb ordinary (l1 ++ DashedRef s (Some (SpFile f)) :: l2) = true ->
  run hash32 minify (Some (cfg, sources)) remap (l1 ++ DashedRef s (Some (SpFile f)) :: l2) new_printer = Fine p ->
  nth_error sources (source_after l1 0) = Some so ->
  (forall l1' s' f' l2' so', l1 ++ DashedRef s (Some (SpFile f)) :: l2 = l1' ++ DashedRef s' (Some (SpFile f')) :: l2' ->
     nth_error sources (source_after l1' 0) = Some so' ->
     file_reference hash32 pat so' s' f' = file_reference hash32 pat so s f -> s' = s /\ f' = f) ->
  exists p1 p2, run hash32 minify (Some (cfg, sources)) remap l1 new_printer = Fine p1 /\
    run_op hash32 minify (Some (cfg, sources)) remap (DashedRef s (Some (SpFile f))) p1 = Fine p2 /\
    prints "" (file_reference hash32 pat so s f) p1 p2 /\
    ref_get (p_refs p) (file_reference hash32 pat so s f) = Some (RDependency s f).
Proof. exact file_references. Qed.
Print Assumptions C24_file_reference_partial.
(** The composes list of a class holds exactly what its composes declarations name, each once.
    Missing: references to files of the bundle, see below. *)
Theorem C24_composes_partial : forall hash32 minify cfg sources remap pat,
  parse_pattern pat = Some (inl (cf_pattern cfg)) -> no_nul pat = true ->
  Forall (clean_source pat) sources -> all_on cfg ->
  forall l p, forallb ordinary l = true -> forallb (fun o => negb (from_bundle o)) l = true ->
  run hash32 minify (Some (cfg, sources)) remap l new_printer = Fine p ->
  forall i s e, ex_get (p_exports p) (i, s) = Some e ->
  NoDup (ex_composes e) /\
  forall r, In r (ex_composes e) <-> exists o, In o l /\ composed hash32 pat sources o i s r.
Proof. exact composes_exact. Qed.
Print Assumptions C24_composes_partial.
(** A reference to a class of a file printed before gives its name and all that it composes. *)
Theorem C24_composes_bundle_partial : forall hash32 minify cfg sources remap pat,
  parse_pattern pat = Some (inl (cf_pattern cfg)) -> no_nul pat = true ->
  Forall (clean_source pat) sources -> all_on cfg ->
  forall l1 sels names j i l2 p,
  forallb ordinary (l1 ++ Compose sels names (Some (SpIndex j)) i :: l2) = true ->
  run hash32 minify (Some (cfg, sources)) remap (l1 ++ Compose sels names (Some (SpIndex j)) i :: l2) new_printer = Fine p ->
  exists p1, run hash32 minify (Some (cfg, sources)) remap l1 new_printer = Fine p1 /\
    forall id s d, In (Some id) sels -> In s names -> ex_get (p_exports p1) (j, s) = Some d ->
      exists e, ex_get (p_exports p) (i, id) = Some e /\
        In (RLocal (ex_name d)) (ex_composes e) /\ incl (ex_composes d) (ex_composes e).
Proof. exact composes_bundle. Qed.
Print Assumptions C24_composes_bundle_partial.
Example C24_example :
  parse_pattern ex_pat = Some (inl (cf_pattern ex_config)) /\ no_nul ex_pat = true
  /\ Forall (clean_source ex_pat) ex_sources /\ all_on ex_config
  /\ forallb ordinary ex_all = true
  /\ exists p, run ex_hash false (Some ex_modules) no_remap ex_all new_printer = Fine p
     /\ ex_get (p_exports p) (0, "a") = Some (mkexport "_1bcXaa_a" [RLocal "_1bcXaa_b"; RGlobal "g"] false)
     /\ ex_get (p_exports p) (0, "--x") = Some (mkexport "--_1bcXaa_x" [] true)
     /\ ex_get (p_exports p) (0, "spin") = Some (mkexport "_1bcXaa_spin" [] true)
     /\ ex_get (p_exports p) (1, "b")
        = Some (mkexport "_1bcXa_b" [RLocal "_1bcXaa_a"; RLocal "_1bcXaa_b"; RGlobal "g"] false)
     /\ ex_get (p_exports p) (0, "b") = None.
Proof.
  split; [vm_compute; reflexivity|]. split; [reflexivity|].
  split; [repeat constructor; discriminate|]. split; [repeat constructor|]. split; [vm_compute; reflexivity|].
  eexists. split; [vm_compute; reflexivity|]. vm_compute. auto 10.
Qed.
Example C24_reference_example :
  let l := [AddMapping (mkloc 1 0 1); DashedRef "--y" (Some (SpFile "d.css"))] in
  forallb ordinary l = true /\
  exists p, run ex_hash true (Some ex_modules) no_remap l new_printer = Fine p /\
    p_out p = file_reference ex_hash ex_pat (mksource "b.css" "b.module" "") "--y" "d.css" /\
    ref_get (p_refs p) (p_out p) = Some (RDependency "--y" "d.css").
Proof. split; [reflexivity|]. eexists. split; [vm_compute; reflexivity|]. vm_compute. auto. Qed.
(** A class and a custom property of the same name share one entry. *)
Theorem C24_key_refuted : exists l p e, 
  run ex_hash true (Some ex_modules) no_remap l new_printer = Fine p /\
  l = [Site ClassName "--x"; Dashed "--x"] /\ p_out p = "._1bcXaa_--x--_1bcXaa_x" /\
  ex_get (p_exports p) (0, "--x") = Some e /\ ex_name e = "_1bcXaa_--x".
Proof. do 3 eexists. split; [|split; [reflexivity|]]; vm_compute; eauto. Qed.
Print Assumptions C24_key_refuted.
(** With [animation] on and [custom_idents] off, the name of an animation is printed as written
    while [@keyframes] and the export map have the scoped name. *)
Theorem C24_animation_refuted : exists p e,
  run ex_hash true (Some (only_animation, ex_sources)) no_remap
    [Site KeyframesIdent "spin"; WriteStr "{}"; Site AnimationIdent "spin"] new_printer = Fine p /\
  p_out p = "_1bcXaa_spin{}spin" /\ ex_get (p_exports p) (0, "spin") = Some e /\ ex_name e = "_1bcXaa_spin".
Proof. do 2 eexists. split; [|split]; vm_compute; eauto. Qed.
Print Assumptions C24_animation_refuted.
(** [animation-name: "none"] is exported though its text is not renamed. *)
Theorem C24_string_refuted : exists p e,
  run ex_hash true (Some ex_modules) no_remap [Site AnimationString "none"] new_printer = Fine p /\
  p_out p = quoted "none" /\ ex_get (p_exports p) (0, "none") = Some e /\ ex_name e = "_1bcXaa_none".
Proof. do 2 eexists. split; [|split]; vm_compute; eauto. Qed.
Print Assumptions C24_string_refuted.
(** A counter style is exported although [custom_idents] is off. *)
Theorem C24_counter_refuted : exists p e,
  run ex_hash true (Some (only_animation, ex_sources)) no_remap [Site CounterStyle "c"] new_printer = Fine p /\
  p_out p = "c" /\ ex_get (p_exports p) (0, "c") = Some e /\ ex_name e = "_1bcXaa_c".
Proof. do 2 eexists. split; [|split]; vm_compute; eauto. Qed.
Print Assumptions C24_counter_refuted.
(** A class of another file of the bundle, composed twice, is listed twice. *)
Theorem C24_twice_refuted : exists p e,
  run ex_hash true (Some ex_modules) no_remap
    [Site ClassName "a"; AddMapping (mkloc 1 0 1); Site ClassName "b";
     Compose [Some "b"] ["a"] (Some (SpIndex 0)) 1; Compose [Some "b"] ["a"] (Some (SpIndex 0)) 1] new_printer = Fine p /\
  ex_get (p_exports p) (1, "b") = Some e /\ ex_composes e = [RLocal "_1bcXaa_a"; RLocal "_1bcXaa_a"].
Proof. do 2 eexists. split; [|split]; vm_compute; eauto. Qed.
Print Assumptions C24_twice_refuted.
(** A class composed from a file of the bundle that has not been printed yet is lost. *)
Theorem C24_order_refuted : exists p e,
  run ex_hash true (Some ex_modules) no_remap
    [AddMapping (mkloc 1 0 1); Site ClassName "b"; Compose [Some "b"] ["a"] (Some (SpIndex 0)) 1;
     AddMapping (mkloc 0 0 1); Site ClassName "a"] new_printer = Fine p /\
  ex_get (p_exports p) (1, "b") = Some e /\ ex_composes e = [].
Proof. do 2 eexists. split; [|split]; vm_compute; eauto. Qed.
Print Assumptions C24_order_refuted.
(** Whatever the hash, [var(--a_b from "c")] and [var(--a from "b_c")] print the same name. *)
Theorem C24_placeholder_refuted : forall hash32 pat so,
  file_reference hash32 pat so "--a_b" "c" = file_reference hash32 pat so "--a" "b_c".
Proof. reflexivity. Qed.
Print Assumptions C24_placeholder_refuted.

(** ** C25: no collisions *)

(** Within a file, for every pattern that contains the local name. *)
Theorem C25_pattern : forall p hash stem local local' content, has_local p ->
  pattern_string p "" hash stem local content = pattern_string p "" hash stem local' content -> local = local'.
Proof. exact same_file_injective. Qed.
Print Assumptions C25_pattern.
(** Between files with different hashes, for patterns of [hash], [local] and literals, where a
    leading [hash] is followed by a literal that no hash ends with.  Missing: the other patterns
    with a leading hash (refuted below) and those with [name] or [content-hash], which can imitate
    one another. *)
Theorem C25_files_partial : forall p v v' s s' l l' c c' n,
  has_local p -> In SHash p -> Forall (fun g => fixed_segment g = true) p ->
  (match p with SHash :: SLiteral t :: _ => separates t = true | SHash :: _ => False | _ => True end) ->
  is_u32 v -> is_u32 v' ->
  name_in p v s l c = Some n -> name_in p v' s' l' c' = Some n -> v = v' /\ l = l'.
Proof. exact files_injective. Qed.
Print Assumptions C25_files_partial.
(** Hence the exported names of a file are distinct; classes and the like among themselves, and
    dashed names among themselves. *)
Theorem C25_exports_partial : forall hash32 minify cfg sources remap pat,
  parse_pattern pat = Some (inl (cf_pattern cfg)) -> no_nul pat = true ->
  Forall (clean_source pat) sources -> all_on cfg ->
  forall l p, forallb ordinary l = true ->
  run hash32 minify (Some (cfg, sources)) remap l new_printer = Fine p ->
  has_local (cf_pattern cfg) -> forall i s s' e e',
  ex_get (p_exports p) (i, s) = Some e -> ex_get (p_exports p) (i, s') = Some e' ->
  dashed s = dashed s' -> ex_name e = ex_name e' -> s = s'.
Proof. exact exports_distinct. Qed.
Print Assumptions C25_exports_partial.
Theorem C25_exports_files_partial : forall hash32 minify cfg sources remap pat,
  parse_pattern pat = Some (inl (cf_pattern cfg)) -> no_nul pat = true ->
  Forall (clean_source pat) sources -> all_on cfg ->
  forall l p, forallb ordinary l = true ->
  run hash32 minify (Some (cfg, sources)) remap l new_printer = Fine p ->
  has_local (cf_pattern cfg) -> In SHash (cf_pattern cfg) ->
  Forall (fun g => fixed_segment g = true) (cf_pattern cfg) ->
  (match cf_pattern cfg with SHash :: SLiteral t :: _ => separates t = true | SHash :: _ => False | _ => True end) ->
  (forall so, is_u32 (hash32 so)) ->
  forall i s i' s' e e' so so',
  ex_get (p_exports p) (i, s) = Some e -> ex_get (p_exports p) (i', s') = Some e' ->
  nth_error sources i = Some so -> nth_error sources i' = Some so' ->
  dashed s = dashed s' -> ex_name e = ex_name e' -> hash32 (so_path so) = hash32 (so_path so') /\ s = s'.
Proof. exact exports_distinct_files. Qed.
Print Assumptions C25_exports_files_partial.
Example C25_example :
  has_local ex_segments /\ In SHash ex_segments /\ Forall (fun g => fixed_segment g = true) ex_segments
  /\ separates "_" = true
  /\ name_in ex_segments 11604176 "a" "y" "" = Some "_1bcXaa_y"
  /\ name_in ex_segments 3292676347 "b" "ay" "" = Some "_1bcXa_ay".
Proof.
  split; [right; right; left; reflexivity|]. split; [left; reflexivity|]. split; [repeat constructor|].
  vm_compute. auto.
Qed.
(** [[hash][local]]: a hash that begins with a digit gets an underscore, which another hash may begin
    with. *)
Theorem C25_adjacent_refuted : exists p v v' s s' n,
  has_local p /\ In SHash p /\ parse_pattern "[hash][local]" = Some (inl p) /\
  is_u32 v /\ is_u32 v' /\ v <> v' /\ name_in p v "a" s "" = Some n /\ name_in p v' "b" s' "" = Some n.
Proof.
  exists [SHash; SLocal], 11604176%N, 3292676347%N, "y", "ay", "_1bcXaay".
  split; [right; left; reflexivity|]. split; [left; reflexivity|].
  split; [vm_compute; reflexivity|]. split; [vm_compute; reflexivity|]. split; [vm_compute; reflexivity|].
  split; [discriminate|]. split; vm_compute; reflexivity.
Qed.
Print Assumptions C25_adjacent_refuted.

(** ** C26: positions *)

(** After any run the line and the column are those of the end of the text.  Missing: names renamed
    by CSS modules that need escapes, characters of several bytes, and text with line feeds given to
    [write_str]; refuted below. *)
Theorem C26_position_partial : forall hash32 minify modules remap l p,
  Forall (tidy hash32 modules) l -> run hash32 minify modules remap l new_printer = Fine p ->
  p_line p = lines (p_out p) /\ p_col p = column (p_out p).
Proof. exact positions. Qed.
Print Assumptions C26_position_partial.
(** The source map has one entry per mapped rule, in order, at the position where what follows is
    printed. *)
Theorem C26_mappings_partial : forall hash32 minify modules remap l p,
  Forall (tidy hash32 modules) l -> run hash32 minify modules remap l new_printer = Fine p ->
  p_maps p = map (fun x => maps_of hash32 minify modules remap (fst x) (snd x)) (marks remap [] l).
Proof. exact mappings. Qed.
Print Assumptions C26_mappings_partial.
Example C26_example :
  exists p, run ex_hash false None no_remap ex_ops new_printer = Fine p
  /\ Forall (tidy ex_hash None) ex_ops
  /\ p_line p = 4%N /\ p_col p = 18%N /\ map m_line (p_maps p) = [0; 4]%N /\ map m_col (p_maps p) = [0; 1]%N.
Proof.
  eexists. split; [vm_compute; reflexivity|]. split; [repeat constructor|]. vm_compute. auto.
Qed.
Theorem C26_escape_refuted : exists l p,
  run ex_hash true (Some ex_modules) no_remap l new_printer = Fine p /\
  l = [Site ClassName "a.b"; AddMapping (mkloc 0 0 1)] /\
  p_col p = 12%N /\ column (p_out p) = 13%N /\ map m_col (p_maps p) = [12]%N.
Proof. do 2 eexists. split; [|split; [reflexivity|]]; vm_compute; auto. Qed.
Print Assumptions C26_escape_refuted.
Theorem C26_multibyte_refuted : forall hash32 minify modules remap c p,
  String.length c = 2 -> run_op hash32 minify modules remap (WriteChar c) new_printer = Fine p ->
  p_col p = 1%N /\ String.length (p_out p) = 2.
Proof.
  intros hash32 minify modules remap c p L E. destruct c as [|a [|b [|]]]; try discriminate.
  cbn [run_op] in E. injection E as <-. unfold write_char.
  destruct (String.eqb (String a (String b "")) (one lf)) eqn:Q; [apply String.eqb_eq in Q; discriminate|]. auto.
Qed.
Print Assumptions C26_multibyte_refuted.

(** ** C27: minified and pretty output *)

(** Both modes end alike; the pretty text is the minified one with blanks added; exports,
    references and the originals of the mappings are the same. *)
Theorem C27_modes : forall hash32 modules remap l,
  match run hash32 true modules remap l new_printer, run hash32 false modules remap l new_printer with
  | Fine p, Fine q =>
      inserted (p_out p) (p_out q) /\ p_exports p = p_exports q /\ p_refs p = p_refs q /\
      p_indent p = p_indent q /\ map m_original (p_maps p) = map m_original (p_maps q)
  | Failed, Failed => True
  | Panicked, Panicked => True
  | _, _ => False
  end.
Proof. exact modes. Qed.
Print Assumptions C27_modes.
(** The blanks are only added by the operations made for that. *)
Theorem C27_content : forall hash32 modules remap l1 o p q p' q',
  layout_op o = false ->
  run hash32 true modules remap l1 new_printer = Fine p ->
  run hash32 false modules remap l1 new_printer = Fine q ->
  run_op hash32 true modules remap o p = Fine p' ->
  run_op hash32 false modules remap o q = Fine q' ->
  exists t, p_out p' = (p_out p ++ t)%string /\ p_out q' = (p_out q ++ t)%string.
Proof. exact content_text. Qed.
Print Assumptions C27_content.
(** Blocks restore the indentation, up to 127 levels.  Missing: deeper ones, refuted below. *)
Theorem C27_indentation_partial : forall hash32 modules remap m b p, writing b = true ->
  (p_indent p + 2 * N.of_nat (depth b) <= 255)%N ->
  exists q, run hash32 m modules remap (flatten b) p = Fine q /\ p_indent q = p_indent p.
Proof. exact indentation. Qed.
Print Assumptions C27_indentation_partial.
Example C27_example :
  out_of (run ex_hash true None no_remap (flatten ex_block) new_printer) = "abc"
  /\ String.length (out_of (run ex_hash false None no_remap (flatten ex_block) new_printer)) = 11
  /\ writing ex_block = true /\ depth ex_block = 2
  /\ String.length (out_of (run ex_hash true (Some ex_modules) no_remap ex_all new_printer)) = 107
  /\ String.length (out_of (run ex_hash false (Some ex_modules) no_remap ex_all new_printer)) = 122.
Proof. vm_compute. auto 10. Qed.
Theorem C27_overflow_refuted : forall hash32 m modules remap,
  run hash32 m modules remap (deep 128) new_printer = Panicked.
Proof. intros. vm_compute. reflexivity. Qed.
Print Assumptions C27_overflow_refuted.

(** ** C50: names read back *)

(** The text printed for a name reads as that name, whatever follows it that does not continue an
    identifier.  Missing: empty names, refuted below, and names with NUL, which the parser never
    makes. *)
Theorem C50_ident_partial : forall s t, s <> "" -> no_nul s = true -> ends_name t = true ->
  read_ident (ser_ident s ++ t) = Some (s, t).
Proof. exact ident_round_trip. Qed.
Print Assumptions C50_ident_partial.
Theorem C50_sites_partial : forall hash32 minify remap k s p, ordinary (Site k s) = true ->
  exists q, run_op hash32 minify None remap (Site k s) p = Fine q /\ prints (sigil k) s p q.
Proof. exact names_read_back. Qed.
Print Assumptions C50_sites_partial.
Theorem C50_dashed : forall hash32 minify remap s p, dashed s = true -> no_nul s = true ->
  exists q, run_op hash32 minify None remap (Dashed s) p = Fine q /\ prints "" s p q.
Proof. exact dashed_read_back. Qed.
Print Assumptions C50_dashed.
Theorem C50_dashed_reference : forall hash32 minify remap s p, dashed s = true -> no_nul s = true ->
  exists q, run_op hash32 minify None remap (DashedRef s None) p = Fine q /\ prints "" s p q.
Proof. exact dashed_ref_read_back. Qed.
Print Assumptions C50_dashed_reference.
Example C50_example :
  ser_ident "-1 a.b" = "-\31 \ a\.b" /\ read_ident "-\31 \ a\.b{" = Some ("-1 a.b", "{")
  /\ ordinary (Site ClassName "-1 a.b") = true /\ dashed "--1.5" = true.
Proof. vm_compute. auto. Qed.
(** [@keyframes ""] prints no name at all. *)
Theorem C50_empty_refuted : forall hash32 minify remap p,
  exists q, run_op hash32 minify None remap (Site KeyframesString "") p = Fine q /\ p_out q = p_out p /\
    read_ident "{" = None.
Proof.
  intros. eexists. split; [reflexivity|]. split; [|reflexivity].
  cbn [write_str set_pos p_out ser_ident]. apply sapp_nil.
Qed.
Print Assumptions C50_empty_refuted.
