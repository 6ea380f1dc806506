(** What is on the screen, for all sequences of events (C60). *)
From Coq Require Import String.
From Verif Require Import Base Str Grid Node Focus Edit Caret Autocomplete Editor Rules NameMap Syntax Pratt Grammar SyntaxFind Render Layout Json FromMathML
  Spec SpecSyntax SpecMove SpecEditor SpecSafety SpecRender SpecDom SpecSight Component SpecComponent SpecContent SpecScreen BaseFacts TreeFacts ParseTotal GrammarFacts RenderFacts HistoryFacts SafetyFacts Samples
  PropsAuto PropsEditor PropsRender PropsSafety PropsImport PropsSight ComponentFacts ComponentProofs ComponentCheck PropsComponent ScreenFacts.
Open Scope list_scope.
Open Scope nat_scope.

(** Whatever happens, also if handlers throw or the editor is lost: the elements on the screen are those of a document that the editor
    had at some time, and from which it has come to the present one. *)
Theorem C60_always : forall env renderers normalize segment c, reached env renderers normalize segment c ->
  exists ops1 ed1, run env (@editor_new SyntaxNode) ops1 = Ok ed1 /\ drawn_from env renderers c (ed_input ed1) /\
  forall ed, co_editor c = Some ed -> exists ops2, run env ed1 ops2 = Ok ed.
Proof.
  intros env renderers normalize segment c R. destruct (past_reached R) as (ed1&(ops1&H1)&D&H). exists ops1, ed1. split; [exact H1|]. split; [exact D|]. intros ed E. exact (proj2 (H ed E)).
Qed.
Print Assumptions C60_always.
(** If no handler throws, the screen shows the document that the last drawing event left. So it shows the present one exactly if the document has
    not changed since then. (Two documents made of single characters never look the same, C70.) *)
Theorem C60_exact : forall cfg xs xc normalize segment connected c l, let env := page cfg xs xc in
  xs 160%N = false -> xs 11034%N = false -> component_new env default_renderers connected = Ok c -> unthrown env default_renderers normalize segment c l ->
  let c' := run_events env default_renderers normalize segment c l in
  exists doc shown, document c' = Some doc /\ last_drawn env default_renderers normalize segment c (Some []) l = Some shown /\ shows env default_renderers c' shown /\
  (made_of usual doc -> made_of usual shown -> (up_to_date env default_renderers c' <-> doc = shown)).
Proof.
  intros cfg xs xc normalize segment connected c l env X1 X2 Hn Hu c'. destruct (new_ok Hn) as ((ed0&E0&S0&K0)&D0&_).
  assert (Ei : ed_input ed0 = []) by (unfold document in D0; rewrite E0 in D0; now injection D0). rewrite Ei in S0.
  assert (R : reached env default_renderers normalize segment c) by (exists connected, c, []; auto).
  destruct (showing_run R Hu (ex_intro _ ed0 (conj E0 (conj S0 K0)))) as (d'&Hl&ed&Ed&S&K). fold c' in Ed, S, K.
  exists (ed_input ed), d'. split; [unfold document; now rewrite Ed|]. split; [exact Hl|]. split; [exact S|]. intros Ud Us. split.
  - intros (ed1&Ed1&S1&_). rewrite Ed in Ed1. injection Ed1 as <-. destruct S as (t&x&P1&P2&_&_&P3), S1 as (t1&x1&Q1&Q2&_&_&Q3).
    refine (C70_different xs xc _ _ x1 x X1 X2 Ud Us (draw_ok _ _ _ _ _ Q1 Q2) (draw_ok _ _ _ _ _ P1 P2) _). congruence.
  - intros E. exists ed. rewrite E. auto.
Qed.
Print Assumptions C60_exact.
(** Dragging out of the numerator: no handler throws, the last document that was drawn is the one before, and the present one is another. *)
Fixpoint unthrown_b (cfg : Cfg) (c : Component) (l : list Event) : bool :=
  match l with
  | [] => true
  | e :: l => let (c', r) := dispatch (ascii_page cfg) default_renderers as_is by_character e c in
      match r with Ok _ => unthrown_b cfg c' l | Panic _ => false end
  end.
Lemma unthrown_b_ok cfg l : forall c, unthrown_b cfg c l = true -> unthrown (ascii_page cfg) default_renderers as_is by_character c l.
Proof.
  induction l as [|e l IH]; intros c H; [exact I|]. cbn [unthrown unthrown_b] in *. destruct (dispatch (ascii_page cfg) default_renderers as_is by_character e c) as [c' [[]|k]]; [|discriminate H]. split; [reflexivity|]. now apply IH.
Qed.
Example C60_exact_case : forall cfg, exists c, component_new (ascii_page cfg) default_renderers true = Ok c /\ unthrown (ascii_page cfg) default_renderers as_is by_character c dragged /\
  last_drawn (ascii_page cfg) default_renderers as_is by_character c (Some []) dragged = Some [fraction (typed "xxxsum+ab") [sym "y"]; sym "z"] /\
  made_of usual [fraction (typed "xxxsum+ab") [sym "y"]; sym "z"] /\ made_of usual [fraction [sym "x"; sym "x"; sym "x"; Symbol [8721%N]; sym "+"; sym "a"; sym "b"] [sym "y"]; sym "z"].
Proof.
  intros cfg. assert (B : match component_new (ascii_page cfg) default_renderers true with Ok c => unthrown_b cfg c dragged = true /\ last_drawn (ascii_page cfg) default_renderers as_is by_character c (Some []) dragged = Some [fraction (typed "xxxsum+ab") [sym "y"]; sym "z"] | Panic _ => False end) by (both_profiles; vm_compute; split; reflexivity).
  destruct (component_new (ascii_page cfg) default_renderers true) as [c|]; [|destruct B]. destruct B as [B1 B2]. exists c. split; [reflexivity|]. split; [now apply unthrown_b_ok|]. split; [exact B2|].
  split; intros x Hx; cbv in Hx; repeat destruct Hx as [<-|Hx]; try destruct Hx; reflexivity.
Qed.
