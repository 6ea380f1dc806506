(** The events of a page with which documents are entered. *)
From Coq Require Import String.
From Verif Require Import Base Str Grid Node Focus Edit Caret Autocomplete Editor Rules NameMap Syntax Pratt Grammar SyntaxFind Render Layout Json FromMathML
  Spec SpecSyntax SpecMove SpecEditor SpecSafety SpecRender SpecDom SpecClick SpecStray SpecPlace Component SpecComponent SpecContent SpecEnter
  BaseFacts TreeFacts MoveFacts OrderFacts ParseFacts ParseTotal GrammarFacts FindFacts RenderFacts HitFacts
  EditorFacts HistoryFacts OpFacts PopupFacts TypingFacts SafetyFacts SafetyProofs PropsRender PropsSafety PropsHit ComponentFacts ComponentProofs ContentFacts EnterFacts EnterSteps.
Open Scope list_scope.
Open Scope nat_scope.
Set Implicit Arguments.
Unset Strict Implicit.

Lemma hand_node doc p row v c : made_of hand_part doc -> row_get doc p = Some row -> In (Container v c) row -> hand_part (PartContainer v (List.length (gvalues c)) (gwidth c)).
Proof.
  intros M Hr Hin. apply M. eapply row_get_parts; [exact Hr|]. apply in_row_parts. exists (Container v c). split; [exact Hin|]. destruct c as [cells w]. rewrite node_parts_container. now left.
Qed.
Lemma hand_row doc p row : made_of hand_part doc -> row_get doc p = Some row -> forall v c, In (Container v c) row -> v <> Sub /\ v <> Sup.
Proof. intros M Hr v c Hin. pose proof (hand_node M Hr Hin) as H. destruct v; cbn in H; try (exfalso; exact H); split; discriminate. Qed.
(** What can be entered can be drawn. *)
Lemma hand_drawn xs xc doc : wf_row doc -> made_of hand_part doc -> exists x, draw xs xc doc = Ok x.
Proof.
  intros Hw M.
  assert (S : forall p row k v c, row_get doc p = Some row -> nth_error row k = Some (Container v c) -> v = Sub \/ v = Sup -> False).
  { intros p row k v c Hr Hk Hv. destruct (hand_row M Hr (nth_error_In _ _ Hk)) as [H1 H2]. destruct Hv; contradiction. }
  apply C50_drawn_partial; [exact Hw| | |].
  - intros p row Hr k v c Hk Hv. pose proof (hand_node M Hr (nth_error_In _ _ Hk)) as H. destruct Hv as [->| ->]; cbn in H; [destruct H|apply H].
  - intros p row Hr k (v&c&Hk&Hv). exfalso. eapply S; eauto.
  - intros p row Hr k (v&c&Hk&Hv). exfalso. eapply S; eauto.
Qed.

Section Page.
Variable cfg : Cfg.
Variable xs xc : N -> bool.
Variable normalize : str -> str.
Variable segment : str -> list str.
Notation env := (page cfg xs xc).
Notation rs := default_renderers.
Notation dispatch := (dispatch env rs normalize segment).
Notation update_input := (update_input env rs).
Notation call := (call env).

(** A component at rest that shows the document *)
Record shown (c : Component) (d : InputRow) (m : MinimalCaret) : Prop := mkShown {
  sh_reached : reached env rs normalize segment c;
  sh_editor : exists ed, co_editor c = Some ed /\ ed_input ed = d /\ ed_caret ed = m;
  sh_wf : wf_row d;
  sh_made : made_of hand_part d;
  sh_shows : shows env rs c d;
  sh_tasks : co_tasks c = [] }.

Lemma query_same d m ed op ed' out : op = OpGetCaret \/ op = OpGetSyntaxTree -> (ed_input ed = d /\ ed_caret ed = m) -> step env ed op = Ok (ed', out) -> ed_input ed' = d /\ ed_caret ed' = m.
Proof.
  intros [->| ->] H Hs; cbn [step] in Hs; apply bind_ok in Hs as (r&Hr&Hs); [injection Hs as <- _; exact H|]. destruct r as [ed1 t]. injection Hs as <- _. unfold get_syntax_tree in Hr.
  destruct (ed_parsed ed); [injection Hr as <- _; exact H|]. apply bind_ok in Hr as (t'&_&Hr). injection Hr as <- _. exact H.
Qed.
Lemma op_shown c ed op ed' out d m : co_editor c = Some ed -> fresh env ed -> step env ed op = Ok (ed', out) -> ed_input ed' = d -> ed_caret ed' = m -> wf_row d -> made_of hand_part d -> valid_caret d m ->
  exists c', handle (call op) (fun _ => update_input) c = (c', Ok tt) /\ (exists ed2, co_editor c' = Some ed2 /\ ed_input ed2 = d /\ ed_caret ed2 = m) /\ shows env rs c' d /\ co_tasks c' = co_tasks c.
Proof.
  intros E F Hs <- <- Hw M V. assert (Hc : call op c = (set_editor (Some ed') c, Ok out)) by (unfold Component.call; now rewrite E, Hs). rewrite (handle_eq _ Hc).
  assert (F' : fresh env ed') by (eapply step_fresh; eauto). set (c1 := set_editor (Some ed') c).
  assert (E1 : co_editor c1 = Some ed') by reflexivity.
  destruct (@update_placed cfg xs xc c1 ed' E1 (conj Hw V) F' (hand_drawn _ _ Hw M)) as (c'&H). exists c'. split; [exact H|].
  assert (F1 : on_editor (fresh env) c1) by (intros e0 E0; rewrite E1 in E0; injection E0 as <-; exact F').
  destruct (update_ok H F1) as ((ed2&E2&S2&_)&_&_).
  pose proof (@keeps_update_input env rs (fun e => ed_input e = ed_input ed' /\ ed_caret e = ed_caret ed') (@query_same _ _) c1) as K. rewrite H in K.
  assert (P2 : ed_input ed2 = ed_input ed' /\ ed_caret ed2 = ed_caret ed') by (apply K; [intros e0 E0; rewrite E1 in E0; injection E0 as <-; auto|exact E2]). destruct P2 as [P1 P2].
  split; [exists ed2; auto|]. rewrite P1 in S2. split; [exact S2|]. change (co_tasks c) with (co_tasks c1). exact (unaware_keeps (@unaware_update env rs) H).
Qed.
Lemma shown_fresh c d m ed : shown c d m -> co_editor c = Some ed -> fresh env ed.
Proof. intros S. exact (reached_fresh (sh_reached S)). Qed.

(** An event that makes a single call *)
Lemma event_shown c d m e op d' m' : shown c d m -> (forall ed, ed_input ed = d -> ed_caret ed = m -> exists ed', step env ed op = Ok (ed', OutNone _) /\ ed_input ed' = d' /\ ed_caret ed' = m') ->
  (forall c', handle (call op) (fun _ => update_input) c = (c', Ok tt) -> dispatch e c = (c', Ok tt)) -> wf_row d' -> made_of hand_part d' -> valid_caret d' m' ->
  shown (fst (dispatch e c)) d' m'.
Proof.
  intros S Hs He Hw M V. destruct (sh_editor S) as (ed&E&E1&E2). destruct (Hs ed E1 E2) as (ed'&H&H1&H2).
  destruct (op_shown E (shown_fresh S E) H H1 H2 Hw M V) as (c'&Hc&Hed&Hsh&Ht). specialize (He _ Hc).
  assert (R : reached env rs normalize segment (fst (dispatch e c))) by (apply reached_next; exact (sh_reached S)). rewrite He in *. cbn [fst] in *.
  split; auto. rewrite Ht. exact (sh_tasks S).
Qed.
Lemma right_shown c d m d' m' : shown c d m -> (forall ed, ed_input ed = d -> ed_caret ed = m -> exists ed', step env ed (OpMoveCaret DRight MChar) = Ok (ed', OutNone _) /\ ed_input ed' = d' /\ ed_caret ed' = m') ->
  wf_row d' -> made_of hand_part d' -> valid_caret d' m' -> shown (fst (dispatch (EvKey KeyRight) c)) d' m'.
Proof.
  intros S Hs. apply event_shown with (d := d) (m := m) (op := OpMoveCaret DRight MChar); auto. intros c' H. cbn [Component.dispatch]. unfold on_key. rewrite handle_assoc. exact H.
Qed.
(** An input event and the timer *)
Lemma input_shown c d m t op d' m' : shown c d m -> task_op segment t = Some op -> (forall ed, ed_input ed = d -> ed_caret ed = m -> exists ed', step env ed op = Ok (ed', OutNone _) /\ ed_input ed' = d' /\ ed_caret ed' = m') ->
  wf_row d' -> made_of hand_part d' -> valid_caret d' m' -> shown (run_events env rs normalize segment c [EvBeforeInput t; EvTimer]) d' m'.
Proof.
  intros S Ht Hs Hw M V. destruct (sh_editor S) as (ed&E&E1&E2). destruct (Hs ed E1 E2) as (ed'&H&H1&H2).
  destruct (op_shown E (shown_fresh S E) H H1 H2 Hw M V) as (c'&Hc&Hed&Hsh&Htk). rewrite (sh_tasks S) in Htk.
  assert (R : reached env rs normalize segment (run_events env rs normalize segment c [EvBeforeInput t; EvTimer])) by (cbn [run_events]; do 2 apply reached_next; exact (sh_reached S)).
  assert (Er : run_events env rs normalize segment c [EvBeforeInput t; EvTimer] = c').
  { assert (D1 : dispatch (EvBeforeInput t) c = (set_tasks [t] c, Ok tt)) by (cbn [Component.dispatch]; rewrite handle_get, (sh_tasks S); reflexivity).
    cbn [run_events]. rewrite D1. cbn [fst]. cbn [Component.dispatch]. rewrite handle_get. change (co_tasks (set_tasks [t] c)) with [t]. cbn [run_tasks]. rewrite handle_modify.
    assert (Ec : set_tasks [] (set_tasks [t] c) = c) by (destruct c; pose proof (sh_tasks S) as X; cbn in X; subst; reflexivity). rewrite Ec.
    assert (Hd : do_task env rs segment t c = (c', Ok tt)) by (destruct t as [| |[w|]|]; cbn in Ht; try discriminate Ht; injection Ht as <-; exact Hc).
    rewrite (handle_eq _ Hd). reflexivity. }
  rewrite Er in *. split; auto.
Qed.
(** A click next to the start of a row *)
Lemma click_shown c d m p : shown c d m -> (exists row, row_get d p = Some row) -> (forall ed, ed_input ed = d -> ed_caret ed = m -> exists ed', step env ed (OpStartSelection (mkMinPos p 0) MChar) = Ok (ed', OutNone _) /\ ed_input ed' = d /\ ed_caret ed' = collapsed (mkMinPos p 0)) ->
  exists pt, shown (fst (dispatch (EvPointerDown true pt) c)) d (collapsed (mkMinPos p 0)).
Proof.
  intros S (row&Hr) Hs. destruct (shows_draw (sh_shows S)) as (x&D&Ex).
  destruct (C72_every xs xc d x p row 0 (sh_wf S) D) as (tb&tp&_&El); [|exact Hr|lia| |].
  - intros q row' _ Hq. apply no_script_row. exact (hand_row (sh_made S) Hq).
  - intros n i j _ (w&s&_&_&H1&_) H2. lia.
  - exists (mkPoint tb tp). destruct (sh_editor S) as (ed&E&E1&E2). destruct (Hs ed E1 E2) as (ed'&H&H1&H2).
    assert (V : valid_caret d (collapsed (mkMinPos p 0))) by (assert (X : valid_pos d (mkMinPos p 0)) by (exists row; split; [exact Hr|cbn; lia]); split; exact X).
    set (c1 := set_pointer_down true c). assert (E1' : co_editor c1 = Some ed) by exact E.
    destruct (op_shown E1' (shown_fresh S E) H H1 H2 (sh_wf S) (sh_made S) V) as (c'&Hc&Hed&Hsh&Htk).
    assert (Hd : dispatch (EvPointerDown true (mkPoint tb tp)) c = (c', Ok tt)).
    { cbn [Component.dispatch]. assert (Hp : pointer_position (mkPoint tb tp) c = (c, Ok (mkMinPos p 0))).
      { unfold pointer_position. rewrite handle_get, Ex. unfold handle, lift. cbn [to_bounds to_place]. rewrite El. reflexivity. }
      rewrite (handle_eq _ Hp), handle_modify. exact Hc. }
    assert (R : reached env rs normalize segment (fst (dispatch (EvPointerDown true (mkPoint tb tp)) c))) by (apply reached_next; exact (sh_reached S)).
    rewrite Hd in *. cbn [fst] in *. split; auto; [exact (sh_wf S)|exact (sh_made S)|]. rewrite Htk. exact (sh_tasks S).
Qed.
Lemma new_shown connected c : component_new env rs connected = Ok c -> shown c [] (collapsed (mkMinPos [] 0)).
Proof.
  intros Hn. destruct (new_ok Hn) as ((ed&E&Sh&_)&D&Ht). assert (Ei : ed_input ed = []) by (unfold document in D; rewrite E in D; cbn in D; now injection D).
  split; auto.
  - exists connected, c, []. auto.
  - exists ed. split; [exact E|]. split; [exact Ei|]. exact (new_caret Hn E).
  - exact wf_row_nil.
  - apply made_nil.
  - rewrite Ei in Sh. exact Sh.
Qed.
End Page.
