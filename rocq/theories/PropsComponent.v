(** Properties of the custom element (C60 to C65). *)
From Coq Require Import String.
From Verif Require Import Base Str Grid Node Focus Edit Caret Autocomplete Editor Rules NameMap Syntax Pratt Grammar SyntaxFind Render Layout Json FromMathML
  Spec SpecSyntax SpecMove SpecEditor SpecSafety SpecRender SpecDom Component SpecComponent BaseFacts TreeFacts ParseTotal GrammarFacts RenderFacts HistoryFacts SafetyFacts Samples
  PropsAuto PropsEditor PropsRender PropsSafety PropsImport ComponentFacts ComponentProofs ComponentCheck.
Open Scope list_scope.
Open Scope nat_scope.

(** Words for examples: an editor in a page, the events of typing a text, and a place in the
    formula that is clicked. *)
Definition ascii_page (cfg : Cfg) : Env SyntaxNode := page cfg ascii_letter ascii_continue.
Definition after (cfg : Cfg) (l : list Event) : option Component :=
  match component_new (ascii_page cfg) default_renderers true with
  | Ok c => Some (run_events (ascii_page cfg) default_renderers as_is by_character c l)
  | Panic _ => None
  end.
Definition typing (s : string) : list Event := flat_map (fun c => [EvBeforeInput (InsertText (Some [c])); EvTimer]) (lit s).
Definition press (t : InputType) : list Event := [EvBeforeInput t; EvTimer].
Definition load (nodes : list Xml) : Event := EvConnect (Some (tag "math" nodes)).
Definition spot_eqb (a b : Spot) : bool :=
  match a, b with
  | AtLeft, AtLeft | AtRight, AtRight | AtLastText, AtLastText | AtMiddle, AtMiddle | AtStartReader, AtStartReader | AtEndReader, AtEndReader => true
  | AtText i, AtText j => i =? j
  | _, _ => false
  end.
Fixpoint path_nat_eqb (a b : list nat) : bool :=
  match a, b with
  | [], [] => true
  | x :: a, y :: b => (x =? y) && path_nat_eqb a b
  | _, _ => false
  end.
(** On the element with this path, close to a caret position *)
Definition point (path : list nat) (spot : Spot) : Point :=
  mkPoint (fun p => if prefix_b p path then 0 else 1) (fun place => if path_nat_eqb (fst place) path && spot_eqb (snd place) spot then 0 else 1).
Definition doc_after (cfg : Cfg) (l : list Event) : option InputRow := match after cfg l with Some c => document c | None => None end.
(** The editor has panicked. *)
Definition dead (cfg : Cfg) (l : list Event) : Prop := match after cfg l with Some c => co_editor c = None | None => False end.
(** The event throws, and the editor survives it. *)
Definition throws (cfg : Cfg) (l : list Event) (e : Event) : Prop :=
  match after cfg l with
  | Some c => match dispatch (ascii_page cfg) default_renderers as_is by_character e c with (c', Panic _) => co_editor c' <> None | _ => False end
  | None => False
  end.
(** The text on the screen *)
Definition screen (c : Component) : str := concat (flat_map dom_texts (co_drawn c)).
Lemma after_reached cfg l c : after cfg l = Some c -> reached (ascii_page cfg) default_renderers as_is by_character c.
Proof. unfold after. destruct (component_new _ _ true) as [c0|] eqn:E; [|discriminate]. intros H. inv H. exists true, c0, l. auto. Qed.
Lemma after_next cfg l e c : after cfg l = Some c -> after cfg (l ++ [e]) = Some (fst (dispatch (ascii_page cfg) default_renderers as_is by_character e c)).
Proof. unfold after. destruct (component_new _ _ true) as [c0|]; [|discriminate]. intros H. injection H as <-. now rewrite run_events_app. Qed.

(** * C60: the formula and the caret on the screen are those of the document *)
(** After every event that draws the formula anew and does not throw, whatever happened before. *)
Theorem C60_redraw_partial : forall env renderers normalize segment c e c', reached env renderers normalize segment c -> redraws c e = true ->
  dispatch env renderers normalize segment e c = (c', Ok tt) -> up_to_date env renderers c'.
Proof. intros env renderers normalize segment c e c' Hr. apply redraw_ok. intros ed E. eapply reached_fresh; eauto. Qed.
Print Assumptions C60_redraw_partial.
(** After all events, if none throws and no drag or double click moves away from a completely typed
    token. *)
Fixpoint undisturbed env renderers normalize segment (c : Component) (l : list Event) : Prop :=
  match l with
  | [] => True
  | e :: l => snd (dispatch env renderers normalize segment e c) = Ok tt /\
      (drags e = true -> forall ed, co_editor c = Some ed -> ~ autocorrect_pending env ed) /\
      undisturbed env renderers normalize segment (fst (dispatch env renderers normalize segment e c)) l
  end.
Theorem C60_events_partial : forall env renderers normalize segment connected c l, component_new env renderers connected = Ok c ->
  undisturbed env renderers normalize segment c l -> up_to_date env renderers (run_events env renderers normalize segment c l).
Proof.
  intros env renderers normalize segment connected c l Hn. pose proof (proj1 (new_ok Hn)) as U. assert (R : reached env renderers normalize segment c) by (exists connected, c, []; auto). clear Hn.
  revert c U R. induction l as [|e l IH]; intros c U R H; [exact U|]. destruct H as (H1&H2&H3). cbn [run_events]. destruct (dispatch env renderers normalize segment e c) as [c' r] eqn:E. cbn [fst snd] in *. subst r.
  apply IH; [|change c' with (fst (c', Ok tt)); rewrite <- E; now apply reached_next|exact H3].
  eapply event_ok; eauto. intros ed Ed. eapply reached_fresh; eauto.
Qed.
Print Assumptions C60_events_partial.
(** After a drag out of a numerator with "xxxsum" the document has the sum sign, and the screen still
    "sum". After a space next to x^2, which makes the renderer throw, the screen still shows y. *)
Definition numerator : Xml := tag "mfrac" [tag "mrow" [token "mi" "xxxsum"; token "mo" "+"; token "mi" "ab"]; token "mi" "y"].
Definition dragged : list Event := [load [numerator; token "mi" "z"]; EvPointerDown true (point [0; 0; 0] AtRight); EvPointerMove true (point [2] AtRight)].
Definition square : Xml := tag "msup" [token "mi" "x"; token "mn" "2"].
Definition spaced : list Event := [load [square; token "mi" "y"]; EvPointerDown true (point [2] AtRight)] ++ typing " " ++ [EvKey KeyLeft] ++ press DeleteBackward.
Definition outdated (cfg : Cfg) (l : list Event) (text : str) : Prop :=
  exists c, after cfg l = Some c /\ co_editor c <> None /\ ~ up_to_date (ascii_page cfg) default_renderers c /\ screen c = text.
Definition outdated_b (cfg : Cfg) (l : list Event) (text : str) : bool :=
  match after cfg l with
  | Some c => str_eqb (screen c) text &&
      match co_editor c with
      | Some ed => match draw ascii_letter ascii_continue (ed_input ed) with Ok x => negb (str_eqb (concat (flat_map dom_texts (get_elements x))) text) | Panic _ => true end
      | None => false
      end
  | None => false
  end.
Lemma outdated_drawn cfg l text : outdated_b cfg l text = true -> outdated cfg l text.
Proof.
  unfold outdated_b. intros H. destruct (after cfg l) as [c|] eqn:E; [|discriminate]. apply andb_true_iff in H as [Ht H]. apply str_eqb_eq in Ht. exists c. split; [exact E|].
  destruct (co_editor c) as [ed|] eqn:Ed; [|discriminate]. split; [discriminate|]. split; [|exact Ht].
  intros (ed'&E'&(t&x&Et&Ex&_&_&Ec)&_). rewrite Ed in E'. injection E' as <-. unfold screen in Ht. rewrite Ec in Ht. rewrite (draw_ok _ _ _ _ _ Et Ex) in H. rewrite Ht in H.
  assert (R : str_eqb text text = true) by now apply str_eqb_eq. rewrite R in H. discriminate.
Qed.
Theorem C60_refuted : forall cfg,
  outdated cfg dragged (lit "xxxsum+aby" ++ [160%N; 160%N] ++ lit "z") /\ doc_after cfg dragged = Some [fraction [sym "x"; sym "x"; sym "x"; Symbol [8721%N]; sym "+"; sym "a"; sym "b"] [sym "y"]; sym "z"] /\
  outdated cfg spaced (lit "x2" ++ [160%N; 160%N] ++ lit "y ") /\ doc_after cfg spaced = Some [sym "x"; sup [sym "2"]; sym " "].
Proof.
  intros cfg. split; [apply outdated_drawn|split; [|split; [apply outdated_drawn|]]]; both_profiles; vm_compute; reflexivity.
Qed.
Print Assumptions C60_refuted.
(** Loading, clicking, dragging, typing, moving, deleting and undoing *)
Definition session : list Event :=
  [load [tag "mfrac" [token "mi" "x"; token "mi" "y"]; token "mo" "+"]; EvPointerDown true (point [1] AtRight); EvPointerMove true (point [0; 1] AtRight); EvPointerUp true (point [1] AtRight)] ++ typing "ab" ++
  [EvKey KeyLeft] ++ press DeleteForward ++ [EvKey KeyUndo; EvKey KeyRight; EvCopy true; EvDisconnect].
Fixpoint undisturbed_b env (c : Component) (l : list Event) : bool :=
  match l with
  | [] => true
  | e :: l => let (c', r) := dispatch env default_renderers as_is by_character e c in
      ok_b r && (negb (drags e) || match co_editor c with Some ed => negb (pending_b env ed) | None => true end) && undisturbed_b env c' l
  end.
Lemma undisturbed_b_ok env l : forall c, undisturbed_b env c l = true -> undisturbed env default_renderers as_is by_character c l.
Proof.
  induction l as [|e l IH]; intros c H; [exact I|]. cbn [undisturbed undisturbed_b] in *. destruct (dispatch env default_renderers as_is by_character e c) as [c' [[]|k]]; [|discriminate H]. cbn [ok_b fst snd andb] in *.
  apply andb_true_iff in H as [H H2]. split; [reflexivity|]. split; [|auto]. intros Hd ed E. rewrite Hd, E in H. cbn in H. apply pending_b_ok. now apply negb_true_iff.
Qed.
Example C60_case : exists c, component_new (ascii_page debug_profile) default_renderers true = Ok c /\ undisturbed (ascii_page debug_profile) default_renderers as_is by_character c session /\
  doc_after debug_profile session = Some [fraction [sym "x"] [sym "y"]; sym "+"; sym "a"; sym "b"].
Proof.
  assert (H : match component_new (ascii_page debug_profile) default_renderers true with Ok c => undisturbed_b (ascii_page debug_profile) c session | Panic _ => false end = true) by (vm_compute; reflexivity).
  destruct (component_new (ascii_page debug_profile) default_renderers true) as [c|k] eqn:E; [|discriminate]. exists c. split; [reflexivity|]. split; [now apply undisturbed_b_ok|vm_compute; reflexivity].
Qed.

(** * C61: no event makes a handler throw *)
(** Missing are the operations, documents and clicks that are known to fail: see [fine_event]. *)
Theorem C61_total_partial : forall cfg xs xc normalize segment connected, let env := page cfg xs xc in
  exists c, component_new env default_renderers connected = Ok c /\
  forall l1 e l2, fine_all env default_renderers normalize segment (fine_op env default_renderers) c (l1 ++ e :: l2) ->
  snd (dispatch env default_renderers normalize segment e (run_events env default_renderers normalize segment c l1)) = Ok tt.
Proof.
  intros cfg xs xc normalize segment connected env.
  assert (D : forall ed op ed' out, fine_op env default_renderers ed op -> step env ed op = Ok (ed', out) -> exists x, draw xs xc (ed_input ed') = Ok x).
  { intros ed op ed' out [_ H] Hs. destruct (H _ _ Hs) as (x&Hx). apply bind_ok in Hx as (t&Et&Hx). exists x. eapply draw_ok; eauto. }
  destruct (new_total cfg xs xc (Q := nonempty) (proj2 C20_default_rules) connected) as (c&Hc).
  exists c. split; [exact Hc|]. intros l1 e l2 Hf.
  exact (@events_total cfg xs xc normalize segment nonempty (fine_op env default_renderers) (proj2 C20_default_rules) (fun s h => h) (fun ed op _ H => proj1 H)
    (fun ed op ed' out _ Hf Hs _ => D ed op ed' out Hf Hs) l1 c e l2 (@new_healthy cfg xs xc nonempty (proj2 C20_default_rules) connected c Hc) Hf).
Qed.
Print Assumptions C61_total_partial.
(** As long as no space is typed, pasted or loaded, and nothing else in which fractions or roots do
    not have two cells, everything can be drawn. *)
Theorem C61_tidy_partial : forall cfg xs xc normalize segment connected, let env := page cfg xs xc in
  exists c, component_new env default_renderers connected = Ok c /\
  forall l1 e l2, fine_all env default_renderers normalize segment (safe_op env tidy) c (l1 ++ e :: l2) ->
  snd (dispatch env default_renderers normalize segment e (run_events env default_renderers normalize segment c l1)) = Ok tt.
Proof.
  intros cfg xs xc normalize segment connected env. destruct (new_total cfg xs xc tidy_rules connected) as (c&Hc).
  exists c. split; [exact Hc|]. intros l1 e l2 Hf. 
  exact (@events_total cfg xs xc normalize segment tidy (safe_op env tidy) tidy_rules tidy_nonempty (fun ed op _ H => H)
    (fun ed op ed' out _ _ _ S => tidy_row_drawn xs xc (so_doc S)) l1 c e l2 (@new_healthy cfg xs xc tidy tidy_rules connected c Hc) Hf).
Qed.
Print Assumptions C61_tidy_partial.
(** A document with a space after a superscript is not drawn. Text that is not in the clipboard format
    cannot be pasted. MathML in which something is missing cannot be set. *)
Theorem C61_refuted : forall cfg, throws cfg (removelast spaced) EvTimer /\ throws cfg [] (EvPaste (Some ([], lit "x"))) /\
  throws cfg [] (EvAttribute (Some (tag "math" [tag "msub" []]))).
Proof. intros cfg. split; [|split]; both_profiles; vm_compute; discriminate. Qed.
Print Assumptions C61_refuted.

(** The session above, with a cut and a paste: nothing throws. *)
Definition more : list Event := session ++ [load [tag "mfrac" [token "mi" "x"; token "mi" "y"]; token "mo" "+"; token "mi" "abc"]; EvPointerDown true (point [0] AtLeft); EvPointerUp true (point [1] AtRight); EvCut true;
  EvPaste (Some (serialize_input_nodes [sup [sym "2"]], [])); EvAttribute (Some (tag "math" [square]))].
Example C61_case : exists c, component_new (ascii_page debug_profile) default_renderers true = Ok c /\
  fine_all (ascii_page debug_profile) default_renderers as_is by_character (safe_op (ascii_page debug_profile) tidy) c more /\
  doc_after debug_profile more = Some [sym "x"; sup [sym "2"]].
Proof.
  assert (H : match component_new (ascii_page debug_profile) default_renderers true with Ok c => all_b (ascii_page debug_profile) as_is by_character c more | Panic _ => false end = true) by (vm_compute; reflexivity).
  destruct (component_new (ascii_page debug_profile) default_renderers true) as [c|k] eqn:E; [|discriminate]. exists c. split; [reflexivity|]. split; [now apply all_b_ok|vm_compute; reflexivity].
Qed.

(** * C62: nothing a user does makes the editor stop working *)
Theorem C62_survives_partial : forall cfg xs xc normalize segment connected c l, let env := page cfg xs xc in
  component_new env default_renderers connected = Ok c -> fine_all env default_renderers normalize segment (safe_op env tidy) c l ->
  exists ed, co_editor (run_events env default_renderers normalize segment c l) = Some ed /\ wf_row (ed_input ed) /\ valid_caret (ed_input ed) (ed_caret ed) /\
  up_to_date env default_renderers (run_events env default_renderers normalize segment c l).
Proof.
  intros cfg xs xc normalize segment connected c l env Hc Hf. 
  destruct (@run_total cfg xs xc normalize segment tidy (safe_op env tidy) tidy_rules tidy_nonempty (fun ed op _ H => H)
    (fun ed op ed' out _ _ _ S => tidy_row_drawn xs xc (so_doc S)) l c (@new_healthy cfg xs xc tidy tidy_rules connected c Hc) Hf) as (U&ed&E&S&_).
  exists ed. split; [exact E|]. split; [exact (sound_wf S)|]. split; [exact (so_caret S)|exact U].
Qed.
Print Assumptions C62_survives_partial.
(** After a panic, no event ever changes anything on the screen again. *)
Theorem C62_forever : forall env renderers normalize segment c l, co_editor c = None -> let c' := run_events env renderers normalize segment c l in
  co_editor c' = None /\ co_tree c' = co_tree c /\ co_result c' = co_result c /\ co_drawn c' = co_drawn c /\ co_carets c' = co_carets c.
Proof. intros env renderers normalize segment c l. apply stuck_events. Qed.
Print Assumptions C62_forever.
(** In all builds: clicking elsewhere after typing "xxxxxsqrt"; clicking and typing after the
    renderer has thrown; an empty table. *)
Theorem C62_refuted : forall cfg, dead cfg (typing "xxxxxsqrt" ++ [EvPointerDown true (point [0] AtLeft)]) /\
  dead cfg (spaced ++ [EvPointerDown true (point [2; 1] AtRight)] ++ typing "a") /\
  dead cfg [load [tag "mtable" []]].
Proof. intros cfg. split; [|split]; both_profiles; vm_compute; reflexivity. Qed.
Print Assumptions C62_refuted.
(** In builds with overflow checks, such as that of this repository: Backspace and Delete in an empty
    editor, Left at the start of a numerator. *)
Theorem C62_overflow_refuted : dead debug_profile (press DeleteBackward) /\ dead debug_profile (press DeleteForward) /\
  dead debug_profile [load [tag "mfrac" [token "mi" "x"; token "mi" "y"]]; EvKey KeyRight; EvKey KeyLeft].
Proof. split; [|split]; vm_compute; reflexivity. Qed.
Print Assumptions C62_overflow_refuted.

(** * C63: setting the attribute replaces the document *)
(** By what is read from the MathML, if the screen was up to date before and nothing throws. *)
Theorem C63_replaces_partial : forall cfg xs xc renderers normalize segment c math c' doc, let env := page cfg xs xc in
  reached env renderers normalize segment c -> document c = Some doc -> wf_row doc -> shows env renderers c doc ->
  dispatch env renderers normalize segment (EvAttribute (Some math)) c = (c', Ok tt) ->
  exists root errors, from_element normalize segment math = Ok (root, errors) /\ document c' = Some root /\ up_to_date env renderers c'.
Proof.
  intros cfg xs xc renderers normalize segment c math c' doc env R Hd Hw (t&x&Et&_&Ec&_) H. cbn [dispatch] in H. pose proof H as H0. apply mathml_ok in H0 as (m&root&errors&ed&ed'&out&Em&Ef&E&Hs&Hu). inv Em.
  exists root, errors. split; [exact Ef|]. unfold document in Hd. rewrite E in Hd. inv Hd.
  assert (F : on_editor (fresh env) (set_editor (Some ed') c)). { intros ed0 E0. cbn in E0. inv E0. eapply step_fresh; [|exact Hs]. eapply reached_fresh; eauto. }
  destruct (update_ok Hu F) as (U&Du&_). split; [|exact U]. rewrite Du. cbn. f_equal. rewrite (parse_range Hw Et) in Hs. destruct (C42_splice_any_partial _ _ _ _ _ _ _ Hs) as ((row&_&_&Hrep)&_). cbn in Hrep.
  inversion Hrep as [r r' E1 E2 E3 E4|]; subst. now rewrite skipn_all, app_nil_r.
Qed.
Print Assumptions C63_replaces_partial.
(** A formula shorter than the position of the caret, any formula while the caret is in a fraction. *)
Theorem C63_refuted : forall cfg, dead cfg (typing "ab" ++ [EvAttribute (Some (tag "math" [token "mi" "x"]))]) /\
  dead cfg [load [tag "mfrac" [token "mi" "x"; token "mi" "y"]]; EvKey KeyRight; EvAttribute (Some (tag "math" [token "mi" "x"]))].
Proof. intros cfg. split; both_profiles; vm_compute; reflexivity. Qed.
Print Assumptions C63_refuted.

(** With the caret at the start. *)
Lemma two_events cfg e1 e2 d1 d2 :
  match after cfg [] with
  | Some c0 => match dispatch (ascii_page cfg) default_renderers as_is by_character e1 c0 with
      | (c, Ok tt) => document c = Some d1 /\ match dispatch (ascii_page cfg) default_renderers as_is by_character e2 c with (c', Ok tt) => document c' = Some d2 | _ => False end
      | _ => False
      end
  | None => False
  end -> (forall c, redraws c e1 = true) ->
  exists c c', after cfg [e1] = Some c /\ document c = Some d1 /\ shows (ascii_page cfg) default_renderers c d1 /\
  dispatch (ascii_page cfg) default_renderers as_is by_character e2 c = (c', Ok tt) /\ document c' = Some d2.
Proof.
  intros H Hr. destruct (after cfg []) as [c0|] eqn:E0; [|destruct H]. pose proof (after_reached _ _ _ E0) as R. apply (after_next _ _ e1) in E0. cbn [app] in E0.
  destruct (dispatch (ascii_page cfg) default_renderers as_is by_character e1 c0) as [c [[]|]] eqn:E1; [|destruct H]. destruct H as [Hd H]. destruct (dispatch (ascii_page cfg) default_renderers as_is by_character e2 c) as [c' [[]|]] eqn:E2; [|destruct H]. exists c, c'.
  split; [exact E0|]. split; [exact Hd|]. split; [|auto]. destruct (C60_redraw_partial _ _ _ _ c0 e1 c R (Hr c0) E1) as (ed&Ee&Sh&_). unfold document in Hd. rewrite Ee in Hd. injection Hd as Hd. rewrite <- Hd. exact Sh.
Qed.
Example C63_case : forall cfg, let math := tag "math" [square] in
  exists c c', after cfg [load [token "mi" "x"]] = Some c /\ document c = Some [sym "x"] /\ shows (ascii_page cfg) default_renderers c [sym "x"] /\
  dispatch (ascii_page cfg) default_renderers as_is by_character (EvAttribute (Some math)) c = (c', Ok tt) /\ document c' = Some [sym "x"; sup [sym "2"]].
Proof.
  intros cfg math. apply two_events; [both_profiles; vm_compute; auto|reflexivity].
Qed.

(** * C64: undo does not remove the formula that the element was given *)
(** It always does. *)
Theorem C64_refuted : forall cfg xs xc normalize segment connected c math c1, let env := page cfg xs xc in
  component_new env default_renderers connected = Ok c ->
  dispatch env default_renderers normalize segment (EvConnect (Some math)) c = (c1, Ok tt) ->
  document (fst (dispatch env default_renderers normalize segment (EvKey KeyUndo) c1)) = Some [].
Proof.
  intros cfg xs xc normalize segment connected c math c1 env Hn H. pose proof H as H0. destruct (new_ok Hn) as (_&Hd&_). cbn [dispatch] in H. rewrite handle_modify in H. apply mathml_ok in H as (m&root&errors&ed&ed'&out&_&_&E&Hs&Hu).
  unfold document in Hd. change (co_editor (set_connected true c)) with (co_editor c) in E. rewrite E in Hd. cbn in Hd. injection Hd as Hd.
  destruct (C42_splice_any_partial _ _ _ _ _ _ _ Hs) as (_&ed2&Hun&Hi&Hc). rewrite Hd in Hi.
  pose proof (new_caret Hn E) as Hcaret.
  set (P := fun e : MathEditor SyntaxNode => ed_input e = ed_input ed' /\ ed_undo e = ed_undo ed').
  assert (K : on_editor P c1).
  { pose proof (@update_keeps env default_renderers P (fun e p H => H) (set_editor (Some ed') (set_connected true c))) as K. rewrite Hu in K. apply K. intros e1 E1. cbn in E1. inv E1. split; reflexivity. }
  destruct (update_ok Hu) as (_&Hd1&_). { intros e1 E1. cbn in E1. inv E1. eapply step_fresh; [|exact Hs]. eapply (reached_fresh (normalize := normalize) (segment := segment) (c := c)); [exists connected, c, []; eauto|exact E]. }
  unfold document in Hd1. cbn in Hd1. destruct (co_editor c1) as [e1|] eqn:E1; [|discriminate]. destruct (K e1 E1) as [K1 K2]. destruct (undo_same (eq_sym K1) (eq_sym K2) Hun) as (e2&Hun2&Hi2&Hc2).
  specialize (Hc2 eq_refl). cbn [dispatch]. unfold on_key. rewrite handle_assoc. unfold handle at 1. unfold call at 1. rewrite E1. cbn [step]. rewrite Hun2. cbn [bind]. rewrite handle_ret.
  destruct (new_total cfg xs xc (Q := nonempty) (proj2 C20_default_rules) true) as (c0&Hc0). destruct (new_ok Hc0) as ((e0&E0&(t&_&Et&_)&_)&Hd0&_). unfold document in Hd0. rewrite E0 in Hd0. cbn in Hd0. injection Hd0 as Hd0. rewrite Hd0 in Et.
  assert (G : exists e3, get_syntax_tree env e2 = Ok (e3, t) /\ ed_input e3 = [] /\ ed_caret e3 = default_caret).
  { unfold get_syntax_tree. destruct (ed_parsed e2) as [t2|] eqn:Ep.
    - exists e2. split; [|split; congruence]. f_equal. f_equal. assert (Fr : fresh env e2). { eapply (step_fresh (ed := e1) (op := OpUndo)); [|cbn [step]; rewrite Hun2; reflexivity]. eapply (reached_fresh (c := c1)); [|exact E1].
        change c1 with (fst (c1, Ok tt)). rewrite <- H0. apply reached_next. exists connected, c, []. auto. }
      apply Fr in Ep. rewrite Hi2, Hi in Ep. fold env in Et. rewrite Ep in Et. now injection Et.
    - rewrite Hi2, Hi. fold env in Et. rewrite Et. cbn [bind]. eexists. split; [reflexivity|]. split; cbn; congruence. }
  destruct G as (e3&G1&G2&G3). unfold document. rewrite (@update_alive env default_renderers _ e2 e3 t (MSelRow (mkMinRange [] 0 0))); [cbn; now rewrite G2|reflexivity|exact G1|].
  unfold get_caret. rewrite G2, G3. reflexivity.
Qed.
Print Assumptions C64_refuted.

Example C64_case : forall cfg, doc_after cfg [load [square]] = Some [sym "x"; sup [sym "2"]] /\ doc_after cfg [load [square]; EvKey KeyUndo] = Some [] /\
  match after cfg [] with Some c => snd (dispatch (ascii_page cfg) default_renderers as_is by_character (load [square]) c) = Ok tt | None => False end.
Proof. intros cfg. split; [|split]; both_profiles; vm_compute; reflexivity. Qed.

(** * C65: what is typed is handled in order, and once *)
(** Whatever the handlers throw: after as many timers as there are inputs, every input was handled
    once, in the order in which they came. *)
Theorem C65_queue : forall env renderers normalize segment c l, co_tasks c = [] ->
  run_events env renderers normalize segment c (map EvBeforeInput l ++ repeat EvTimer (List.length l)) =
  set_tasks [] (fold_left (fun c t => fst (do_task env renderers segment t c)) l (set_tasks l c)).
Proof.
  intros env renderers normalize segment c l Hc.
  assert (H : forall l0 l c, co_tasks c = l0 -> run_events env renderers normalize segment c (map EvBeforeInput l) = set_tasks (l0 ++ l) c).
  { clear. intros l0 l. revert l0. induction l as [|t l IH]; intros l0 c Hc; cbn [map run_events].
    - rewrite app_nil_r, <- Hc. symmetry. apply set_tasks_same.
    - cbn [dispatch]. rewrite handle_get. unfold modify. cbn [fst]. rewrite (IH (l0 ++ [t])) by (rewrite Hc; reflexivity). rewrite <- app_assoc. reflexivity. }
  rewrite run_events_app, (H [] l c Hc). cbn [app]. rewrite timers_tasks by reflexivity. reflexivity.
Qed.
Print Assumptions C65_queue.
(** The renderer throws after the first input, the others are handled. *)
Definition at_end : list Event := [load [square]; EvKey KeyRight; EvKey KeyRight; EvKey KeyRight; EvKey KeyRight].
Definition inputs : list InputType := [InsertText (Some (lit " ")); DeleteBackward; InsertText (Some (lit "a"))].
Example C65_case : forall cfg, throws cfg (at_end ++ map EvBeforeInput inputs) EvTimer /\
  doc_after cfg (at_end ++ map EvBeforeInput inputs ++ [EvTimer]) = Some [sym "x"; sup [sym "2"]; sym " "] /\
  doc_after cfg (at_end ++ map EvBeforeInput inputs ++ [EvTimer; EvTimer]) = Some [sym "x"; sup [sym "2"]; sym "a"].
Proof. intros cfg. split; [|split]; both_profiles; vm_compute; first [discriminate|reflexivity]. Qed.

(** * C66: in a page the editor is only in states that its operations lead to *)
(** Whatever happens to the component, so that everything that is proved about the editor applies. *)
Theorem C66_reachable : forall env renderers normalize segment c ed, reached env renderers normalize segment c -> co_editor c = Some ed -> reachable env ed.
Proof. intros env renderers normalize segment c ed. apply reached_reachable. Qed.
Print Assumptions C66_reachable.
