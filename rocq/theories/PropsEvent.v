(** Properties of the events (C84 and C85). *)
From Coq Require Import String.
From Verif Require Import Base Str Grid Node Focus Edit Caret Autocomplete Editor Rules NameMap Syntax Pratt Grammar SyntaxFind Render Layout Json FromMathML
  Component SpecComponent SpecEvent Samples PropsAuto PropsEditor PropsRender PropsSafety PropsImport PropsComponent ComponentFacts EventFacts.
Open Scope list_scope.
Open Scope nat_scope.

(** * C66: in a page the editor is only in states that its operations lead to *)
(** And not even to all of them: Shift with arrows, selecting all and the popup are missing. *)
Theorem C66_used : forall env renderers normalize segment c ed, reached env renderers normalize segment c -> co_editor c = Some ed ->
  exists ops, Forall used_by_element ops /\ run env (@editor_new SyntaxNode) ops = Ok ed.
Proof. intros env renderers normalize segment c ed. apply reached_used. Qed.
Print Assumptions C66_used.

(** * C84: what every event asks of the editor *)
(** The calls of a handler depend on the event, and on what is shown and remembered. If nothing is
    thrown they have all been made, in that order. *)
Theorem C84_calls : forall env renderers normalize segment c e ed c' r, co_editor c = Some ed -> dispatch env renderers normalize segment e c = (c', r) ->
  outcome env ed (event_calls normalize segment c e) (co_editor c') r.
Proof. intros env renderers normalize segment c e ed c' r. apply events_outcome. Qed.
Print Assumptions C84_calls.
(** What is remembered besides, whether or not something is thrown *)
Theorem C84_memory : forall env renderers normalize segment c e c' r, dispatch env renderers normalize segment e c = (c', r) ->
  co_pointer_down c' = pointer_after c e /\ co_connected c' = connected_after c e /\ co_clipboard c' = clipboard_after env c e /\ tasks_after c e r (co_tasks c').
Proof. intros env renderers normalize segment c e c' r. apply events_memory. Qed.
Print Assumptions C84_memory.

(** Two keys wait for the timer, with a click on the end before. *)
Definition waiting : list Event :=
  [load [square]; EvPointerDown true (point [0] AtRight); EvPointerUp true (point [0] AtRight); EvBeforeInput (InsertText (Some (lit "ab"))); EvBeforeInput OtherInput; EvBeforeInput DeleteBackward].
Definition calls_after (cfg : Cfg) (l : list Event) (e : Event) : option (list Op) :=
  match after cfg l with Some c => Some (event_calls as_is by_character c e) | None => None end.
Example C84_case : forall cfg,
  let redraw := [OpGetSyntaxTree; OpGetCaret; OpGetCaret] in
  calls_after cfg [] (load [square]) = Some (OpSpliceAtRange (mkMinRange [] 0 0) [sym "x"; sup [sym "2"]] :: redraw) /\
  calls_after cfg waiting EvTimer = Some ((OpInsertAtCaret [lit "a"; lit "b"] :: redraw) ++ OpRemoveAtCaret RemoveLeft :: redraw) /\
  calls_after cfg (waiting ++ [EvTimer]) (EvMouseDown 2 (point [0] AtRight)) = Some [] /\
  calls_after cfg (removelast waiting ++ [EvPointerDown true (point [0] AtLeft)]) (EvMouseDown 2 (point [0] AtLeft)) = Some [OpStartSelection (mkMinPos [] 0) MWord; OpGetCaret] /\
  doc_after cfg waiting = Some [sym "x"; sup [sym "2"]] /\
  doc_after cfg (waiting ++ [EvTimer]) = Some [sym "x"; sym "a"; sup [sym "2"]].
Proof. intros cfg. cbv zeta. repeat split; both_profiles; vm_compute; reflexivity. Qed.
(** All three outcomes happen. *)
Example C84_outcomes : forall cfg, dead cfg (typing "xxxxxsqrt" ++ [EvPointerDown true (point [0] AtLeft)]) /\ throws cfg (at_end ++ map EvBeforeInput inputs) EvTimer.
Proof. intros cfg. split; both_profiles; vm_compute; first [discriminate|reflexivity]. Qed.

(** * C85: the pointer selects only while its button is held *)
(** Whatever happened: if the button was not pressed, or was released since, moving the pointer and
    what mice tell do nothing at all. *)
Theorem C85_released : forall env renderers normalize segment connected c l e, component_new env renderers connected = Ok c -> held false l = false ->
  match e with EvPointerMove _ _ | EvMouseDown _ _ => True | _ => False end ->
  let c' := run_events env renderers normalize segment c l in dispatch env renderers normalize segment e c' = (c', Ok tt).
Proof. intros env renderers normalize segment connected c l e H Hl He. apply released_ignored; [exact (held_false normalize segment H Hl)|exact He]. Qed.
Print Assumptions C85_released.

(** Pressed at the left and moved to the right, with and without the button *)
Definition drag (l : list Event) : list Event := [load [square]; EvPointerDown true (point [0] AtLeft)] ++ l ++ [EvPointerMove true (point [0] AtRight)].
Definition caret_after (cfg : Cfg) (l : list Event) : option MinimalCaret :=
  match after cfg l with Some c => match co_editor c with Some ed => Some (ed_caret ed) | None => None end | None => None end.
Example C85_case : forall cfg, held false (removelast (drag [])) = true /\ held false (removelast (drag [EvPointerUp true (point [0] AtLeft)])) = false /\
  caret_after cfg (drag []) = Some (mkMinCaret (mkMinPos [] 0) (mkMinPos [] 1)) /\
  caret_after cfg (drag [EvPointerUp true (point [0] AtLeft)]) = Some (mkMinCaret (mkMinPos [] 0) (mkMinPos [] 0)).
Proof. intros cfg. repeat split; both_profiles; vm_compute; reflexivity. Qed.
