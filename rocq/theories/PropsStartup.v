(** Properties of loading the editor in a page (C92). *)
From Coq Require Import String.
From Verif Require Import Base Str Grid Node Focus Edit Caret Autocomplete Editor Rules NameMap Syntax Pratt Grammar SyntaxFind Render Layout Json FromMathML
  Spec SpecEditor SpecSafety SpecRender SpecDom Component SpecComponent Startup SpecStartup DemoPage RenderFacts Samples PropsAuto PropsEditor PropsParse PropsImport PropsRender PropsComponent StartupFacts.
Open Scope list_scope.
Open Scope nat_scope.

(** Every marked formula of the page that is not in another one becomes an editor of it, and nothing else changes. *)
Theorem C92_page : forall cfg xs xc normalize segment l, NoDup (flat_map identities l) ->
  Forall2 (editable (edits (page cfg xs xc) default_renderers normalize segment)) l (start_up (page cfg xs xc) default_renderers normalize segment l).
Proof. exact page_opened. Qed.
Print Assumptions C92_page.

(** The editors of a page and their documents *)
Fixpoint editors (n : PageNode) : list (option Component) :=
  match n with PageElement _ _ _ nodes => flat_map editors nodes | PageText _ => [] | PageEditor c => [c] end.
Definition started (cfg : Cfg) (l : list PageNode) : list PageNode := start_up (ascii_page cfg) default_renderers as_is by_character l.
Definition documents (cfg : Cfg) (l : list PageNode) : list (option InputRow) :=
  map (fun c => match c with Some c => document c | None => None end) (flat_map editors (started cfg l)).

(** The hypothesis for the demo page of the repository, with 206 elements *)
Example C92_demo_ids : NoDup (flat_map identities demo_page) /\ List.length (flat_map identities demo_page) = 206.
Proof. split; [|vm_compute; reflexivity]. assert (E : flat_map identities demo_page = seq 0 206) by (vm_compute; reflexivity). rewrite E. apply seq_NoDup. Qed.
(** Its 14 formulas. The 5 in the tenth one, in [mstyle], is lost. *)
Definition infinity : InputNode := Symbol [8734%N].
Definition pi : InputNode := Symbol [960%N].
Example C92_demo : forall cfg, documents cfg demo_page = map Some [
  typed "-2x+y*2";
  [root (typed "2") (root (typed "2") (typed "xxx") :: typed "a"); fraction (typed "b") (typed "c")];
  typed "-1214.3001-1.3-1.3";
  [fraction (typed "1.22") ([sym """"] ++ typed "henlo" ++ [sym """"])];
  typed "-x" ++ sub (typed "2") :: typed "+y" ++ [sup [fraction (typed "2") (typed "k+1")]];
  typed "-2";
  fraction (typed "A") (typed "2") :: typed "=(" ++ Container Table (mkGrid (map (fun c => [sym c]) ["1"; "2"; "3"; "4"; "5"; "6"; "7"; "8"; "9"]%string) 3) :: typed ")";
  [Symbol [8721%N]; sub (typed "n=0"); sup (typed "+" ++ [infinity]); fraction (typed "1") [sym "n"; sup (typed "2")]; sym "="; fraction [pi; sup (typed "2")] (typed "6")];
  typed "cat" ++ sub (typed "27") :: sup [infinity] :: typed "=<>=cat" ++ [sub (typed "27"); sup [infinity]];
  [fraction [root (typed "2") [pi]] (typed "6"); sym "+"; fraction [pi] (typed "6"); sym "+"; root (typed "2") [root (typed "2") []]; sym "+"; sym "+"; sym "c"; sub (typed "27"); sup [infinity]];
  typed "-2" ++ sup (typed "3") :: typed "+2" ++ sup [sym "4"; sup (typed "8")] :: typed "*2" ++ [sup (typed "3"); sup (typed "3")];
  typed "-2";
  root (typed "3") [root (typed "2") (fraction (typed "1") (typed "2") :: typed "+4")] :: typed "+0";
  [root (typed "a") [root (typed "2") (typed "b")]]].
Proof. intros cfg. both_profiles; vm_compute; reflexivity. Qed.
(** All of them are shown, each with a caret. *)
Example C92_demo_drawn : forall cfg, forallb (fun c => match c with
  | Some c => match co_drawn c, co_carets c with _ :: _, [CaretRow _ _ _] => co_connected c | _, _ => false end
  | None => false end) (flat_map editors (started cfg demo_page)) = true.
Proof. intros cfg. both_profiles; vm_compute; reflexivity. Qed.
(** The formulas are in the domain of the theorem. *)
Example C92_demo_wf : forall cfg, forallb (fun d => match d with Some d => wf_rowb d | None => false end) (documents cfg demo_page) = true.
Proof. intros cfg. both_profiles; vm_compute; reflexivity. Qed.
(** Formulas without the attribute and other elements with it are left alone, and so is what is in a formula. *)
Definition nested : list PageNode := [
  PageElement 0 (lit "p") true [PageElement 1 (lit "math") false [el 2 "mi" [words "x"]; editor_formula 3 [el 4 "mi" [words "y"]]]];
  editor_formula 5 [el 6 "mi" [words "a"]; editor_formula 7 [el 8 "mi" [words "b"]]; el 9 "mi" [words "c"]]].
Example C92_nested : forall cfg, exists c1 c2,
  started cfg nested = [PageElement 0 (lit "p") true [PageElement 1 (lit "math") false [el 2 "mi" [words "x"]; PageEditor (Some c1)]]; PageEditor (Some c2)] /\
  document c1 = Some (typed "y") /\ document c2 = Some (typed "abc").
Proof. intros cfg. both_profiles; do 2 eexists; (split; [vm_compute; reflexivity|]); split; vm_compute; reflexivity. Qed.
(** A formula that cannot be read gives an empty editor without a caret. *)
Example C92_unreadable : forall cfg, exists c, started cfg [editor_formula 0 [el 1 "mi" [words "x"]; el 2 "msub" []]] = [PageEditor (Some c)] /\ document c = Some [] /\ co_carets c = [].
Proof. intros cfg. both_profiles; eexists; (split; [vm_compute; reflexivity|]); split; vm_compute; reflexivity. Qed.

(** A formula is put into its editor twice, so that undoing it once does not change anything, and undoing it twice removes it. *)
Theorem C92_undo_refuted : forall cfg, exists c, started cfg [editor_formula 0 [el 1 "mi" [words "x"]]] = [PageEditor (Some c)] /\ document c = Some (typed "x") /\
  let key k c := fst (dispatch (ascii_page cfg) default_renderers as_is by_character (EvKey k) c) in
  document (key KeyUndo c) = Some (typed "x") /\ document (key KeyUndo (key KeyUndo c)) = Some [].
Proof. intros cfg. both_profiles; eexists; (split; [vm_compute; reflexivity|]); (split; [vm_compute; reflexivity|]); split; vm_compute; reflexivity. Qed.
Print Assumptions C92_undo_refuted.
(** A table with nothing in it leaves an editor that does not work. *)
Theorem C92_table_refuted : forall cfg, exists c, started cfg [editor_formula 0 [el 1 "mtable" []]] = [PageEditor (Some c)] /\ document c = None.
Proof. intros cfg. both_profiles; eexists; (split; [vm_compute; reflexivity|]); vm_compute; reflexivity. Qed.
Print Assumptions C92_table_refuted.

(** * C63: when setting the attribute works *)
(** The document of an element in the page that shows it is replaced if the caret is in the root row, and not behind the
    end of the new formula. Otherwise the editor is lost. *)
Theorem C63_exact : forall cfg xs xc normalize segment c ed math root errors, let env := page cfg xs xc in
  reached env default_renderers normalize segment c -> co_connected c = true -> co_editor c = Some ed -> wf_row (ed_input ed) -> shows env default_renderers c (ed_input ed) ->
  from_element normalize segment math = Ok (root, errors) -> wf_row root -> (exists x, draw xs xc root = Ok x) ->
  let c' := fst (dispatch env default_renderers normalize segment (EvAttribute (Some math)) c) in
  (caret_in_root root (ed_caret ed) -> document c' = Some root /\ up_to_date env default_renderers c') /\
  (~ caret_in_root root (ed_caret ed) -> document c' = None).
Proof.
  intros cfg xs xc normalize segment c ed math root errors env R Hc E Hw Sh Hf Hr D c'. pose proof (ComponentFacts.reached_fresh R E) as F.
  destruct (mathml_exact E F Hw Sh Hf Hr D) as [H1 H2]. split; [exact H1|exact (H2 Hc)].
Qed.
Print Assumptions C63_exact.
(** With the caret behind "ab": a formula of two symbols, and one of one symbol *)
Example C63_exact_case : forall cfg, exists c ed, after cfg (EvConnect (Some (tag "math" [])) :: typing "ab") = Some c /\ co_connected c = true /\ co_editor c = Some ed /\
  ed_input ed = typed "ab" /\ shows (ascii_page cfg) default_renderers c (ed_input ed) /\
  caret_in_root (typed "xy") (ed_caret ed) /\ ~ caret_in_root (typed "x") (ed_caret ed) /\
  from_element as_is by_character (tag "math" [token "mi" "x"; token "mi" "y"]) = Ok (typed "xy", []).
Proof.
  intros cfg. both_profiles; do 2 eexists; (split; [vm_compute; reflexivity|]); (split; [reflexivity|]); (split; [reflexivity|]); (split; [vm_compute; reflexivity|]).
  all: split; [do 2 eexists; repeat split; vm_compute; reflexivity|]. all: split; [split; split; vm_compute; auto|]. all: split; [intros [[_ H] _]; vm_compute in H; lia|vm_compute; reflexivity].
Qed.
