(** A page with a row of symbols is a text field (C96). *)
From Coq Require Import String.
From Verif Require Import Base Str Grid Node Focus Edit Caret Autocomplete Editor Rules NameMap Syntax Pratt Grammar SyntaxFind Render Layout Json FromMathML
  Spec SpecAuto SpecMove SpecEditor SpecSafety SpecLeave SpecField SpecDom RenderFacts SpecRender Component SpecComponent SpecEvent SpecPageField Samples
  PropsAuto PropsEditor PropsRender PropsSafety PropsImport PropsComponent PropsField ComponentFacts PageFieldFacts.
Open Scope list_scope.
Open Scope nat_scope.

(** Whatever happened before, as long as the screen is up to date. No handler throws, and the screen is up to date after all of
    the events. *)
Theorem C96_text_field : forall cfg xs xc normalize segment c ed fresh f l s, let env := page cfg xs xc in
  reached env default_renderers normalize segment c -> up_to_date env default_renderers c -> co_editor c = Some ed ->
  ed_input ed = map Symbol (f_text f) -> Forall (fun s => s <> []) (f_text f) -> ed_caret ed = field_caret [] f ->
  f_anchor f <= List.length (f_text f) -> f_cursor f <= List.length (f_text f) -> (fresh = true -> ed_undo ed = undo_new) ->
  events_alone env default_renderers normalize segment c l ->
  pf_events cfg xs xc segment fresh (mkPageField (mkSession [] f []) (co_tasks c) (co_pointer_down c) (co_clipboard c)) l = Some s ->
  events_quiet env default_renderers normalize segment c l /\ shows_page env default_renderers s (run_events env default_renderers normalize segment c l).
Proof. intros cfg xs xc normalize segment c ed fresh f l s env. apply page_field. Qed.
Print Assumptions C96_text_field.
(** A new element is an empty text field. *)
Theorem C96_new : forall cfg xs xc normalize segment connected c l s, let env := page cfg xs xc in
  component_new env default_renderers connected = Ok c -> events_alone env default_renderers normalize segment c l ->
  pf_events cfg xs xc segment true (mkPageField (mkSession [] (mkField [] 0 0) []) [] false None) l = Some s ->
  events_quiet env default_renderers normalize segment c l /\ shows_page env default_renderers s (run_events env default_renderers normalize segment c l).
Proof.
  intros cfg xs xc normalize segment connected c l s env Hn Hq H. destruct (new_empty Hn) as (ed&E&E1&E2&E3&E4&E5&E6).
  apply (C96_text_field cfg xs xc normalize segment c ed true (mkField [] 0 0) l s).
  - exists connected, c, []. split; [exact Hn|reflexivity].
  - exact (proj1 (new_ok Hn)).
  - exact E.
  - exact E1.
  - apply Forall_nil.
  - exact E2.
  - apply Nat.le_refl.
  - apply Nat.le_refl.
  - intros _. exact E3.
  - exact Hq.
  - rewrite E4, E5, E6. exact H.
Qed.
Print Assumptions C96_new.
(** Wherever one clicks, it is at some offset in the text. *)
Theorem C96_click : forall xs xc t p, exists k, click xs xc t p = Some k /\ k <= List.length t.
Proof. exact click_total. Qed.
Print Assumptions C96_click.

(** A check for [events_alone] *)
Fixpoint alone_events (cfg : Cfg) (c : Component) (l : list Event) : bool :=
  match l with
  | [] => true
  | e :: l => match co_editor c with Some ed => alone_run (ascii_page cfg) ed (event_calls as_is by_character c e) | None => true end &&
      alone_events cfg (fst (dispatch (ascii_page cfg) default_renderers as_is by_character e c)) l
  end.
Lemma alone_events_ok : forall cfg l c, alone_events cfg c l = true -> events_alone (ascii_page cfg) default_renderers as_is by_character c l.
Proof.
  intros cfg l. induction l as [|e l IH]; intros c H; [exact I|]. cbn [alone_events] in H. apply andb_prop in H as [H1 H2]. split; [|now apply IH].
  intros ed E. rewrite E in H1. now apply alone_run_ok.
Qed.
(** "abc" is typed, with a key that comes before the timer; the middle is selected with the mouse and cut, and pasted at the end; then undo, and redo, and Backspace. *)
Definition busy (cut : str) : list Event :=
  typing "ab" ++ [EvBeforeInput (InsertText (Some (lit "c"))); EvKey KeyRight; EvTimer] ++
  [EvPointerDown true (point [] (AtText 1)); EvPointerMove true (point [] AtLeft); EvPointerUp true (point [] (AtText 2)); EvPointerMove true (point [] AtLeft); EvCut true;
   EvKey KeyRight; EvPaste (Some (cut, [])); EvKey KeyUndo; EvKey KeyRedo; EvBeforeInput DeleteBackward; EvTimer].
Example C96_case : forall cfg, let cut := serialize_input_nodes (typed "b") in
  exists c s, component_new (ascii_page cfg) default_renderers true = Ok c /\ alone_events cfg c (busy cut) = true /\
    pf_events cfg ascii_letter ascii_continue by_character true (mkPageField (mkSession [] (mkField [] 0 0) []) [] false None) (busy cut) = Some s /\
    pf_text s = text "ac" /\ List.length (s_past (pf_session s)) = 6 /\ pf_clipboard s = Some cut /\
    doc_after cfg (busy cut) = Some (typed "ac") /\ doc_after cfg (firstn 14 (busy cut)) = Some (typed "acb").
Proof.
  intros cfg. cbv zeta. both_profiles; eexists _, _; (split; [vm_compute; reflexivity|]); (split; [vm_compute; reflexivity|]); (split; [vm_compute; reflexivity|]);
    repeat split; vm_compute; reflexivity.
Qed.
(** Where one clicks on "abc": each letter has its place. *)
Example C96_click_case : map (fun a => click ascii_letter ascii_continue (text "abc") (point [] a)) [AtLeft; AtText 1; AtText 2; AtRight] = [Some 0; Some 1; Some 2; Some 3].
Proof. vm_compute. reflexivity. Qed.
(** To cut with nothing selected overwrites the clipboard with a list of no nodes, and undo then changes nothing. *)
Definition clipboard_after (cfg : Cfg) (l : list Event) : option str := match after cfg l with Some c => co_clipboard c | None => None end.
Theorem C96_cut_nothing : exists l, forall cfg,
  doc_after cfg l = Some (typed "a") /\ clipboard_after cfg l = Some (serialize_input_nodes (typed "a")) /\
  doc_after cfg (l ++ [EvCut true]) = Some (typed "a") /\ clipboard_after cfg (l ++ [EvCut true]) = Some (serialize_input_nodes []) /\
  doc_after cfg (l ++ [EvKey KeyUndo]) = Some [] /\ doc_after cfg (l ++ [EvCut true; EvKey KeyUndo]) = Some (typed "a").
Proof.
  exists (typing "a" ++ [EvPointerDown true (point [] AtLeft); EvPointerUp true (point [] AtRight); EvCopy true; EvKey KeyRight]). intros cfg.
  both_profiles; repeat split; vm_compute; reflexivity.
Qed.
Print Assumptions C96_cut_nothing.
