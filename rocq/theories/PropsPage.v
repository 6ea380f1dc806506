(** Properties of what users do in a page: copying, cutting and pasting, undoing, clicking and
    dragging (C75 to C77). *)
From Coq Require Import String.
From Verif Require Import Base Str Grid Node Focus Edit Caret Autocomplete Editor Rules NameMap Syntax Pratt Grammar SyntaxFind Render Layout Json FromMathML
  Spec SpecSyntax SpecMove SpecEditor SpecText SpecSafety SpecRender SpecDom Component SpecComponent SpecPage BaseFacts TreeFacts RenderFacts HistoryFacts SafetyFacts TextFacts TypingFacts Samples
  PropsAuto PropsEditor PropsRender PropsSafety PropsImport ComponentFacts ComponentProofs ComponentCheck PropsComponent PageFacts.
Open Scope list_scope.
Open Scope nat_scope.

(** * C75: copying, cutting and pasting in a page *)
(** Copying puts the selected nodes of the row on the clipboard, as text, and changes nothing else. *)
Theorem C75_copy : forall cfg xs xc renderers normalize segment c ed m, let env := page cfg xs xc in
  co_editor c = Some ed -> get_caret ed = Ok (MSelRow m) ->
  exists vs, nodes_in (ed_input ed) m vs /\
    dispatch env renderers normalize segment (EvCopy true) c = (set_clipboard (Some (serialize_input_nodes vs)) c, Ok tt).
Proof. intros cfg xs xc renderers normalize segment c ed m env. apply copy_event. Qed.
Print Assumptions C75_copy.
(** Cutting puts the same on the clipboard, removes exactly the selected nodes and puts the caret
    where they were, even if the formula that remains cannot be drawn. *)
Theorem C75_cut : forall cfg xs xc renderers normalize segment c ed m, let env := page cfg xs xc in
  co_editor c = Some ed -> wf_row (ed_input ed) -> get_caret ed = Ok (MSelRow m) -> mr_start m <> mr_end m ->
  let c' := fst (dispatch env renderers normalize segment (EvCut true) c) in
  exists vs ed', nodes_in (ed_input ed) m vs /\ co_clipboard c' = Some (serialize_input_nodes vs) /\ co_editor c' = Some ed' /\
    nodes_replaced (ed_input ed) (mr_row m) (lo m) (hi m) [] (ed_input ed') /\ ed_caret ed' = collapsed (mkMinPos (mr_row m) (lo m)).
Proof.
  intros cfg xs xc renderers normalize segment c ed m env E Hw Hg Hd c'. destruct (@cut_event cfg xs xc renderers normalize segment c ed m E Hw Hg Hd) as (vs&ed'&H1&H2&H3&H4&H5).
  exists vs, ed'. split; [exact H1|]. split; [|auto]. now inversion H2.
Qed.
Print Assumptions C75_cut.
(** Cutting and pasting what is on the clipboard gives back the document, with the caret behind what
    was selected. What is missing: content nested more than 20 deep, see below, and tables with more
    than 4294967295 columns. *)
Theorem C75_cut_paste_partial : forall cfg xs xc renderers normalize segment c ed m vs other, let env := page cfg xs xc in
  co_editor c = Some ed -> proper nonempty (ed_input ed) -> get_caret ed = Ok (MSelRow m) -> mr_start m <> mr_end m ->
  nodes_in (ed_input ed) m vs -> fits_row 4294967295 vs -> row_nesting vs <= 20 ->
  exists text, co_clipboard (fst (dispatch env renderers normalize segment (EvCut true) c)) = Some text /\
  exists ed', co_editor (run_events env renderers normalize segment c [EvCut true; EvPaste (Some (text, other))]) = Some ed' /\
    ed_input ed' = ed_input ed /\ ed_caret ed' = collapsed (mkMinPos (mr_row m) (hi m)).
Proof. intros cfg xs xc renderers normalize segment c ed m vs other env. apply cut_paste. Qed.
Print Assumptions C75_cut_paste_partial.
(** Content nested more than 20 deep is lost when it is cut: pasting throws. *)
Fixpoint halves (n : nat) : Xml := match n with 0 => token "mi" "x" | S n => tag "mfrac" [halves n; token "mi" "y"] end.
Definition select_all_of_it : list Event := drag_events (point [0] AtLeft) [] (point [1] AtRight).
(** Loading the nodes, selecting them, cutting and pasting: the document before and at the end, and
    whether pasting throws. *)
Definition cut_and_paste (cfg : Cfg) (nodes : list Xml) : option (option InputRow * option InputRow * bool) :=
  match after cfg (load nodes :: select_all_of_it ++ [EvCut true]) with
  | Some c => match co_clipboard c with
      | Some text => let '(c', r) := dispatch (ascii_page cfg) default_renderers as_is by_character (EvPaste (Some (text, []))) c in
          Some (doc_after cfg (load nodes :: select_all_of_it), document c', match r with Ok _ => false | Panic _ => true end)
      | None => None
      end
  | None => None
  end.
Theorem C75_cut_paste_refuted : forall cfg, exists doc, cut_and_paste cfg [halves 21] = Some (Some doc, Some [], true) /\ length doc = 1 /\ wf_row doc.
Proof. intros cfg. both_profiles; eexists; (split; [vm_compute; reflexivity|]); (split; [reflexivity|]); apply wf_rowb_ok; vm_compute; reflexivity. Qed.
Print Assumptions C75_cut_paste_refuted.
Lemma tidy_row_nonempty row : tidy_row_b row = true -> proper nonempty row.
Proof. intros H. destruct (tidy_row_b_ok H) as [W P]. split; [exact W|]. intros [s|v n w] Hx; [exact (proj1 (P _ Hx))|exact I]. Qed.
Example C75_case : forall cfg, exists c ed vs, after cfg (load [halves 3] :: select_all_of_it) = Some c /\ co_editor c = Some ed /\ proper nonempty (ed_input ed) /\
  get_caret ed = Ok (MSelRow (mkMinRange [] 0 1)) /\ nodes_in (ed_input ed) (mkMinRange [] 0 1) vs /\ fits_row 4294967295 vs /\ row_nesting vs = 3 /\
  cut_and_paste cfg [halves 3] = Some (Some vs, Some vs, false).
Proof.
  intros cfg. both_profiles; eexists; eexists; eexists; (split; [vm_compute; reflexivity|]); (split; [reflexivity|]); (split; [apply tidy_row_nonempty; vm_compute; reflexivity|]);
  (split; [reflexivity|]); (split; [eexists; repeat split; cbn; lia|]); (split; [apply fits_rowb_ok; vm_compute; reflexivity|]); (split; reflexivity || (vm_compute; reflexivity)).
Qed.

(** * C76: undo and redo in a page *)
Lemma all_fine_app env normalize segment fine l1 : forall c l2, fine_all env default_renderers normalize segment fine c (l1 ++ l2) ->
  fine_all env default_renderers normalize segment fine c l1 /\ fine_all env default_renderers normalize segment fine (run_events env default_renderers normalize segment c l1) l2.
Proof. induction l1 as [|e l1 IH]; intros c l2 H; cbn [app fine_all run_events] in *; [auto|]. destruct H as [H1 H2]. apply IH in H2 as [H2 H3]. auto. Qed.
Lemma fine_op_drawn cfg xs xc ed op ed' out : fine_op (page cfg xs xc) default_renderers ed op -> step (page cfg xs xc) ed op = Ok (ed', out) -> exists x, draw xs xc (ed_input ed') = Ok x.
Proof. intros [_ H] Hs. destruct (H _ _ Hs) as (x&Hx). apply bind_ok in Hx as (t&Et&Hx). exists x. eapply draw_ok; eauto. Qed.
Lemma fine_healthy cfg xs xc normalize segment connected c0 l : component_new (page cfg xs xc) default_renderers connected = Ok c0 ->
  fine_all (page cfg xs xc) default_renderers normalize segment (fine_op (page cfg xs xc) default_renderers) c0 l -> healthy cfg xs xc nonempty (run_events (page cfg xs xc) default_renderers normalize segment c0 l).
Proof.
  intros Hn Hf. exact (@run_total cfg xs xc normalize segment nonempty _ (proj2 C20_default_rules) (fun s h => h) (fun ed op _ H => proj1 H)
    (fun ed op ed' out _ Hf Hs _ => @fine_op_drawn cfg xs xc ed op ed' out Hf Hs) l c0 (@new_healthy cfg xs xc nonempty (proj2 C20_default_rules) connected c0 Hn) Hf).
Qed.
Lemma tidy_healthy cfg xs xc normalize segment connected c0 l : component_new (page cfg xs xc) default_renderers connected = Ok c0 ->
  fine_all (page cfg xs xc) default_renderers normalize segment (safe_op (page cfg xs xc) tidy) c0 l -> healthy cfg xs xc tidy (run_events (page cfg xs xc) default_renderers normalize segment c0 l).
Proof.
  intros Hn Hf. exact (@run_total cfg xs xc normalize segment tidy _ tidy_rules tidy_nonempty (fun ed op _ H => H)
    (fun ed op ed' out _ _ _ S => tidy_row_drawn xs xc (so_doc S)) l c0 (@new_healthy cfg xs xc tidy tidy_rules connected c0 Hn) Hf).
Qed.
(** Whatever the last event did, the undo key pressed once or twice (for the timer: at most twice for
    each input event since the last timer) or not at all gives back the document before it, and the
    redo key pressed as often the document after it. Missing are the events that are known to fail. *)
Theorem C76_undone_partial : forall cfg xs xc normalize segment connected c0 l e, let env := page cfg xs xc in
  component_new env default_renderers connected = Ok c0 -> all_fine env normalize segment c0 (l ++ [e]) -> undo_keys e = false ->
  let c := run_events env default_renderers normalize segment c0 l in let c1 := fst (dispatch env default_renderers normalize segment e c) in
  exists n, n <= steps_of c e /\ document (run_events env default_renderers normalize segment c1 (repeat (EvKey KeyUndo) n)) = document c /\
    document (run_events env default_renderers normalize segment c1 (repeat (EvKey KeyUndo) n ++ repeat (EvKey KeyRedo) n)) = document c1.
Proof.
  intros cfg xs xc normalize segment connected c0 l e env Hn [Hf|Hf] Hu c; apply all_fine_app in Hf as [Hf [He _]].
  - exact (@event_undone cfg xs xc normalize segment nonempty _ (proj2 C20_default_rules) (fun s h => h) (fun ed op _ H => proj1 H)
      (fun ed op ed' out _ Hf Hs _ => @fine_op_drawn cfg xs xc ed op ed' out Hf Hs) c e (fine_healthy _ _ _ _ _ _ _ _ Hn Hf) He Hu).
  - exact (@event_undone cfg xs xc normalize segment tidy _ tidy_rules tidy_nonempty (fun ed op _ H => H)
      (fun ed op ed' out _ _ _ S => tidy_row_drawn xs xc (so_doc S)) c e (tidy_healthy _ _ _ _ _ _ _ _ Hn Hf) He Hu).
Qed.
Print Assumptions C76_undone_partial.
(** Typing, at any time: what is typed is one step, it replaces what is selected. The undo key gives
    back the document and the selection, the redo key what was typed. *)
Theorem C76_typing : forall cfg xs xc renderers normalize segment c ed m data, let env := page cfg xs xc in
  co_editor c = Some ed -> proper nonempty (ed_input ed) -> valid_caret (ed_input ed) (ed_caret ed) -> get_caret ed = Ok (MSelRow m) -> co_tasks c = [] ->
  let c1 := run_events env renderers normalize segment c (type_events data) in
  let c2 := fst (dispatch env renderers normalize segment (EvKey KeyUndo) c1) in
  let c3 := fst (dispatch env renderers normalize segment (EvKey KeyRedo) c2) in
  exists ed1 ed2 ed3, co_editor c1 = Some ed1 /\ co_editor c2 = Some ed2 /\ co_editor c3 = Some ed3 /\
    nodes_replaced (ed_input ed) (mr_row m) (lo m) (hi m) (map Symbol (segment data)) (ed_input ed1) /\
    ed_caret ed1 = collapsed (mkMinPos (mr_row m) (lo m + length (segment data))) /\
    ed_input ed2 = ed_input ed /\ ed_caret ed2 = ed_caret ed /\ ed_input ed3 = ed_input ed1 /\ ed_caret ed3 = ed_caret ed1.
Proof.
  intros cfg xs xc renderers normalize segment c ed m data env E P V G T c1 c2 c3.
  assert (L : lively ed) by (split; [apply P|exact V]).
  destruct (@type_event cfg xs xc renderers normalize segment c ed m data E L T G (@completions_ok cfg xs xc ed P V)) as (ed1&ce&E1&_&R&C&K&U&Ca&Cb).
  inversion K as [|d ce' d' ces d'' K1 K2]; subst. inversion K2; subst.
  destruct (@key_undo cfg xs xc renderers normalize segment c1 ed1 ce _ (ed_input ed) E1 U K1 (proj1 P)) as (ed2&E2&_&I2&C2&U2); [now rewrite Cb|].
  assert (L1 : lively ed1). { eapply replaced_lively with (vs := map Symbol (segment data)); [exact (proj1 P)|apply wf_symbols|exact R|exact C|rewrite map_length; lia]. }
  destruct (@key_redo cfg xs xc renderers normalize segment c2 ed2 ce (redo_stack (ed_undo ed1)) (ed_input ed1) E2) as (ed3&E3&_&I3&C3&_).
  - now rewrite U2.
  - now rewrite I2.
  - apply L1.
  - rewrite Ca. apply L1.
  - exists ed1, ed2, ed3. rewrite C3, C2. auto 12.
Qed.
Print Assumptions C76_typing.
(** Cutting in the middle of a session takes one step, typing "ab" one for each timer. *)
Example C76_case : exists c0, component_new (ascii_page debug_profile) default_renderers true = Ok c0 /\ exists l, more = l ++ [EvCut true; EvPaste (Some (serialize_input_nodes [sup [sym "2"]], [])); EvAttribute (Some (tag "math" [square]))] /\
  all_fine (ascii_page debug_profile) as_is by_character c0 (l ++ [EvCut true]) /\ undo_keys (EvCut true) = false /\
  doc_after debug_profile l = Some [fraction [sym "x"] [sym "y"]; sym "+"; sym "a"; sym "b"; sym "c"] /\ doc_after debug_profile (l ++ [EvCut true]) = Some [sym "a"; sym "b"; sym "c"] /\
  doc_after debug_profile (l ++ [EvCut true; EvKey KeyUndo]) = doc_after debug_profile l.
Proof.
  assert (H : match component_new (ascii_page debug_profile) default_renderers true with Ok c => all_b (ascii_page debug_profile) as_is by_character c (firstn (length more - 2) more) | Panic _ => false end = true) by (vm_compute; reflexivity).
  destruct (component_new (ascii_page debug_profile) default_renderers true) as [c|k] eqn:E; [|discriminate]. exists c. split; [reflexivity|]. exists (firstn (length more - 3) more).
  split; [reflexivity|]. split; [right; now apply all_b_ok in H|]. split; [reflexivity|]. split; [vm_compute; reflexivity|]. split; vm_compute; reflexivity.
Qed.
Example C76_typing_case : forall cfg, exists c ed, after cfg (load [halves 1; token "mo" "+"; token "mi" "a"] :: drag_events (point [1] AtLeft) [] (point [2] AtLeft)) = Some c /\ co_editor c = Some ed /\
  proper nonempty (ed_input ed) /\ valid_caret (ed_input ed) (ed_caret ed) /\ get_caret ed = Ok (MSelRow (mkMinRange [] 1 2)) /\ co_tasks c = [].
Proof.
  intros cfg. both_profiles; eexists; eexists; (split; [vm_compute; reflexivity|]); (split; [reflexivity|]); (split; [apply tidy_row_nonempty; vm_compute; reflexivity|]);
  (split; [split; eexists; (split; [reflexivity|cbn; lia])|]); (split; [reflexivity|reflexivity]).
Qed.

(** * C77: clicking and dragging *)
(** Pressing the mouse button, moving the mouse anywhere and releasing the button selects from the
    first to the last position and changes nothing else; afterwards, moving the mouse does nothing.
    Missing: completely typed tokens before the caret or where the button is pressed, see below, and
    rows that are a sub- or superscript and nothing else. Which positions are hit is C72. *)
Theorem C77_drag_partial : forall cfg xs xc normalize segment connected c0 l p ps p' ed, let env := page cfg xs xc in
  component_new env default_renderers connected = Ok c0 -> all_fine env normalize segment c0 l ->
  let c := run_events env default_renderers normalize segment c0 l in
  co_editor c = Some ed -> ~ autocorrect_pending env ed -> clickable env (ed_input ed) ->
  (forall pos, hits xs xc (ed_input ed) p pos -> calm env (ed_input ed) pos) ->
  let c' := run_events env default_renderers normalize segment c (drag_events p ps p') in
  exists pos pos' ed', hits xs xc (ed_input ed) p pos /\ hits xs xc (ed_input ed) p' pos' /\ valid_pos (ed_input ed) pos /\ valid_pos (ed_input ed) pos' /\
    co_editor c' = Some ed' /\ ed_input ed' = ed_input ed /\ ed_caret ed' = mkMinCaret pos pos' /\ up_to_date env default_renderers c' /\
    co_tasks c' = co_tasks c /\ co_clipboard c' = co_clipboard c /\
    forall q, dispatch env default_renderers normalize segment (EvPointerMove true q) c' = (c', Ok tt).
Proof.
  intros cfg xs xc normalize segment connected c0 l p ps p' ed env Hn Hf c E Ha Hcl Hca c'.
  assert (D : exists pos pos' ed', hits xs xc (ed_input ed) p pos /\ hits xs xc (ed_input ed) p' pos' /\ valid_pos (ed_input ed) pos /\ valid_pos (ed_input ed) pos' /\
    co_editor c' = Some ed' /\ ed_input ed' = ed_input ed /\ ed_caret ed' = mkMinCaret pos pos' /\ up_to_date env default_renderers c' /\ PageFacts.session c' = (false, co_tasks c, co_connected c, co_clipboard c)).
  { destruct Hf as [Hf|Hf].
    - destruct (@drag cfg xs xc normalize segment nonempty (proj2 C20_default_rules) (fun s h => h) c ed p ps p' (fine_healthy _ _ _ _ _ _ _ _ Hn Hf) E Ha Hcl Hca) as (pos&pos'&H1&H2&H3&H4&[[U _] (ed'&E'&I'&C')]&S).
      exists pos, pos', ed'. auto 12.
    - destruct (@drag cfg xs xc normalize segment tidy tidy_rules tidy_nonempty c ed p ps p' (tidy_healthy _ _ _ _ _ _ _ _ Hn Hf) E Ha Hcl Hca) as (pos&pos'&H1&H2&H3&H4&[[U _] (ed'&E'&I'&C')]&S).
      exists pos, pos', ed'. auto 12. }
  destruct D as (pos&pos'&ed'&H1&H2&H3&H4&E'&I'&C'&U&S). unfold PageFacts.session in S. injection S as S1 S2 S3 S4. exists pos, pos', ed'. do 10 (split; [assumption|]).
  intros q. cbn [dispatch handle get lift ret]. unfold handle, get. rewrite S1. reflexivity.
Qed.
Print Assumptions C77_drag_partial.
(** Typing after a drag within a row replaces exactly what is between the two positions. Typing after
    a click, that is with [p' = p], inserts there. *)
Theorem C77_type_partial : forall cfg xs xc normalize segment connected c0 l p ps p' data ed, let env := page cfg xs xc in
  component_new env default_renderers connected = Ok c0 -> all_fine env normalize segment c0 l ->
  let c := run_events env default_renderers normalize segment c0 l in
  co_editor c = Some ed -> co_tasks c = [] -> ~ autocorrect_pending env ed -> clickable env (ed_input ed) ->
  (forall pos, hits xs xc (ed_input ed) p pos -> calm env (ed_input ed) pos) ->
  exists pos pos', hits xs xc (ed_input ed) p pos /\ hits xs xc (ed_input ed) p' pos' /\
  (mp_row pos = mp_row pos' -> let c' := run_events env default_renderers normalize segment c (drag_events p ps p' ++ type_events data) in exists ed', co_editor c' = Some ed' /\
    nodes_replaced (ed_input ed) (mp_row pos) (Nat.min (mp_offset pos) (mp_offset pos')) (Nat.max (mp_offset pos) (mp_offset pos')) (map Symbol (segment data)) (ed_input ed') /\
    ed_caret ed' = collapsed (mkMinPos (mp_row pos) (Nat.min (mp_offset pos) (mp_offset pos') + length (segment data)))).
Proof.
  intros cfg xs xc normalize segment connected c0 l p ps p' data ed env Hn [Hf|Hf] c E T Ha Hcl Hca.
  - exact (@drag_type cfg xs xc normalize segment nonempty (proj2 C20_default_rules) (fun s h => h) c ed p ps p' data (fine_healthy _ _ _ _ _ _ _ _ Hn Hf) E T Ha Hcl Hca).
  - exact (@drag_type cfg xs xc normalize segment tidy tidy_rules tidy_nonempty c ed p ps p' data (tidy_healthy _ _ _ _ _ _ _ _ Hn Hf) E T Ha Hcl Hca).
Qed.
Print Assumptions C77_type_partial.

(** Dragging out of a numerator, from behind a completely typed token, changes the document. *)
Theorem C77_drag_refuted : forall cfg, exists doc doc', doc_after cfg [load [numerator; token "mi" "z"]] = Some doc /\
  doc_after cfg (load [numerator; token "mi" "z"] :: drag_events (point [0; 0; 0] AtRight) [] (point [2] AtRight)) = Some doc' /\ doc <> doc'.
Proof. intros cfg. both_profiles; eexists; eexists; (split; [vm_compute; reflexivity|]); (split; [vm_compute; reflexivity|]); discriminate. Qed.
Print Assumptions C77_drag_refuted.
Definition half_plus_a : Event := load [halves 1; token "mo" "+"; token "mi" "a"].
Example C77_case : forall cfg, exists c0, component_new (ascii_page cfg) default_renderers true = Ok c0 /\ all_fine (ascii_page cfg) as_is by_character c0 [half_plus_a] /\
  exists c ed, c = run_events (ascii_page cfg) default_renderers as_is by_character c0 [half_plus_a] /\ co_editor c = Some ed /\ co_tasks c = [] /\ ~ autocorrect_pending (ascii_page cfg) ed /\ clickable (ascii_page cfg) (ed_input ed) /\
  let p := point [1] AtRight in let p' := point [2] AtRight in
  hits ascii_letter ascii_continue (ed_input ed) p (here 2) /\ calm (ascii_page cfg) (ed_input ed) (here 2) /\ hits ascii_letter ascii_continue (ed_input ed) p' (here 3) /\
  doc_after cfg (half_plus_a :: drag_events p [point [0; 0] AtLeft] p' ++ type_events (lit "bc")) = Some [fraction [sym "x"] [sym "y"]; sym "+"; sym "b"; sym "c"].
Proof.
  assert (H : forall cfg, match component_new (ascii_page cfg) default_renderers true with Ok c => all_b (ascii_page cfg) as_is by_character c [half_plus_a] | Panic _ => false end = true) by (intros cfg; both_profiles; vm_compute; reflexivity).
  intros cfg. specialize (H cfg). destruct (component_new (ascii_page cfg) default_renderers true) as [c0|k] eqn:E; [|discriminate]. exists c0. split; [reflexivity|]. split; [right; now apply all_b_ok|]. revert E H.
  both_profiles; intros E _; vm_compute in E; injection E as <-; eexists; eexists; (split; [reflexivity|]); (split; [vm_compute; reflexivity|]); (split; [vm_compute; reflexivity|]);
  (split; [apply pending_b_ok; vm_compute; reflexivity|]); (split; [apply clickable_b_ok; vm_compute; reflexivity|]); cbv zeta; (split; [eexists; split; vm_compute; reflexivity|]);
  (split; [|split; [eexists; split; vm_compute; reflexivity|vm_compute; reflexivity]]);
  intros [doc parsed ca sm au un] Ed Ec; cbn in Ed, Ec; subst; apply pending_b_ok; vm_compute; reflexivity.
Qed.
