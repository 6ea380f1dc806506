(** Properties of what documents are made of (C100 and C101). *)
From Coq Require Import String.
From Verif Require Import Base Str Grid Node Focus Edit Caret Autocomplete Editor Rules NameMap Syntax Pratt Grammar SyntaxFind Render Layout Json FromMathML
  Spec SpecSyntax SpecMove SpecEditor SpecSafety SpecRender SpecDom Component SpecComponent SpecContent BaseFacts TreeFacts ParseTotal GrammarFacts RenderFacts HistoryFacts SafetyFacts Samples
  PropsAuto PropsEditor PropsRender PropsSafety PropsImport ComponentFacts ComponentProofs ComponentCheck PropsComponent ContentFacts.
Open Scope list_scope.
Open Scope nat_scope.

(** * C100: a document is made of what was typed, pasted and loaded, and of what the rules make of it *)
Theorem C100_content : forall (SyntaxNode : Type) (env : Env SyntaxNode) (Q : Part -> Prop) ops ed,
  rules_give Q (env_rules env) -> Forall (gives Q env) ops -> run env (@editor_new SyntaxNode) ops = Ok ed -> made_of Q (ed_input ed).
Proof. intros SyntaxNode env Q ops ed Hr Hg H. exact (ke_doc (run_kept Hr (kept_new env Q) Hg H)). Qed.
Print Assumptions C100_content.
(** In a page, whatever handlers throw on the way *)
Theorem C100_page : forall env renderers normalize segment (Q : Part -> Prop) connected c l doc,
  rules_give Q (env_rules env) -> (forall text s, In s (segment text) -> Q (PartSymbol s)) ->
  component_new env renderers connected = Ok c -> Forall (event_gives Q env normalize segment) l ->
  document (run_events env renderers normalize segment c l) = Some doc -> made_of Q doc.
Proof.
  intros env renderers normalize segment Q connected c l doc Hr Hs Hn Hl Hd. unfold document in Hd.
  destruct (co_editor (run_events env renderers normalize segment c l)) as [ed|] eqn:E; [|discriminate]. injection Hd as <-. exact (ke_doc (page_kept Hr Hs Hn Hl E)).
Qed.
Print Assumptions C100_page.

(** Small letters and roots of two cells. The rule for fractions is no exception: it has only one character. *)
Definition letters (x : Part) : Prop := match x with PartSymbol s => exists c, s = [c] /\ (97 <= c)%N | PartContainer v n _ => v = RootV /\ n = 2 end.
Definition letter_env (cfg : Cfg) : Env SyntaxNode := mkEnv cfg [mkRule (lit "/") [fraction [] []]; mkRule (lit "sqrt") [root [] []]] (parse (default_grammar ascii_letter ascii_continue)) serialize_input_nodes (deserialize_input_nodes 4294967295).
Example C100_case : forall cfg,
  rules_give letters (env_rules (letter_env cfg)) /\
  (let ops := [OpInsertAtCaret [lit "a"; lit "b"; lit "c"; lit "d"; lit "x"]; OpMoveCaret DLeft MChar; OpInsertAtCaret [lit "s"]; OpInsertAtCaret [lit "q"]; OpInsertAtCaret [lit "r"]; OpInsertAtCaret [lit "t"]; OpMoveCaret DRight MChar; OpSelectAll; OpRemoveAtCaret RemoveLeft; OpUndo] in
   Forall (gives letters (letter_env cfg)) ops /\ exists ed, run (letter_env cfg) (@editor_new SyntaxNode) ops = Ok ed /\ ed_input ed = map typed_symbol (lit "abcd") ++ [root [] []; typed_symbol 120%N]).
Proof.
  intros cfg. split.
  - intros rule [<-|[<-|[]]] Hl x Hx.
    + exfalso. enough (2 <= 1) by lia. apply Hl. intros s (c&->&_). discriminate.
    + destruct Hx as [<-|[]]. split; reflexivity.
  - split.
    + repeat constructor; intros s Hs; cbv in Hs; repeat destruct Hs as [<-|Hs]; try destruct Hs; cbv; eexists; (split; [reflexivity|discriminate]).
    + both_profiles; (eexists; split; [vm_compute; reflexivity|reflexivity]).
Qed.

(** * C101: every formula that can be drawn can be entered with the keyboard and the mouse *)
(** Neither a paste nor the loading of anything but nothing *)
Definition by_hand (normalize : str -> str) (segment : str -> list str) (e : Event) : Prop :=
  match e with
  | EvPaste (Some _) => False
  | EvConnect (Some x) | EvAttribute (Some x) => forall nodes range, from_element normalize segment x = Ok (nodes, range) -> nodes = []
  | _ => True
  end.
Lemma plain_rules : rules_give plain_part default_rules.
Proof.
  intros rule Hr Hl. assert (H2 : 2 <= List.length (rule_parser rule)) by (apply Hl; intros s Hs; exact Hs). clear Hl. intros x Hx.
  assert (B : forallb (fun r => (List.length (rule_parser r) <? 2) || forallb (fun x => match x with PartSymbol s => negb (str_eqb s []) | PartContainer RootV _ _ | PartContainer Table _ _ => true | _ => false end) (row_parts (rule_result r))) default_rules = true) by reflexivity.
  rewrite forallb_forall in B. specialize (B rule Hr). apply orb_prop in B as [B|B]; [apply Nat.ltb_lt in B; lia|]. rewrite forallb_forall in B. specialize (B x Hx).
  destruct x as [[|ch s]|[] n w]; try discriminate B; try discriminate; repeat split; discriminate.
Qed.
Lemma by_hand_gives xs xc cfg normalize segment e : by_hand normalize segment e -> event_gives plain_part (page cfg xs xc) normalize segment e.
Proof.
  intros H. destruct e as [| | | | |[[j t]|]| | | | |[x|]| |[x|]]; try exact I; try destruct H; cbn in *; intros nodes range E; rewrite (H _ _ E); intros y [].
Qed.
(** What is entered by hand contains only roots and tables: there are no fractions, subscripts or superscripts, and there is no
    empty symbol. All texts, with whatever segmentation that does not make empty pieces. *)
Theorem C101_by_hand : forall cfg xs xc renderers normalize segment connected c l doc,
  (forall text s, In s (segment text) -> s <> []) -> component_new (page cfg xs xc) renderers connected = Ok c -> Forall (by_hand normalize segment) l ->
  document (run_events (page cfg xs xc) renderers normalize segment c l) = Some doc ->
  forall p i n, node_get doc p i = Some n -> match n with Symbol s => s <> [] | Container v _ => v = RootV \/ v = Table end.
Proof.
  intros cfg xs xc renderers normalize segment connected c l doc Hs Hn Hl Hd p i n Hp.
  assert (M : made_of plain_part doc).
  { refine (C100_page (page cfg xs xc) _ normalize segment plain_part _ _ _ _ plain_rules Hs Hn _ Hd). eapply Forall_impl; [|exact Hl]. intros e. apply by_hand_gives. }
  unfold node_get in Hp. destruct (row_get doc p) as [row|] eqn:E; [|discriminate].
  assert (Hin : forall x, In x (node_parts n) -> plain_part x) by (intros x Hx; apply M; eapply row_get_parts; [exact E|]; apply in_row_parts; exists n; split; [eapply nth_error_In; eauto|exact Hx]).
  destruct n as [v [cells w]|s].
  - destruct (Hin (PartContainer v (List.length cells) w)) as (H1&H2&H3); [now left|]. destruct v; auto; congruence.
  - exact (Hin (PartSymbol s) (or_introl eq_refl)).
Qed.
Print Assumptions C101_by_hand.
(** So the formula a/b is drawn if it is loaded, but it cannot be entered. *)
Theorem C101_refuted : exists doc, wf_row doc /\ (forall cfg, doc_after cfg [load [tag "mfrac" [token "mi" "a"; token "mi" "b"]]] = Some doc) /\
  forall cfg xs xc renderers normalize segment connected c l, (forall text s, In s (segment text) -> s <> []) -> component_new (page cfg xs xc) renderers connected = Ok c ->
  Forall (by_hand normalize segment) l -> document (run_events (page cfg xs xc) renderers normalize segment c l) <> Some doc.
Proof.
  exists [fraction [typed_symbol 97%N] [typed_symbol 98%N]]. split; [apply wf_rowb_ok; reflexivity|]. split; [intros [[]]; vm_compute; reflexivity|].
  intros cfg xs xc renderers normalize segment connected c l Hs Hn Hl Hd.
  destruct (C101_by_hand cfg xs xc renderers normalize segment connected c l _ Hs Hn Hl Hd [] 0 _ eq_refl) as [H|H]; discriminate H.
Qed.
Print Assumptions C101_refuted.
(** A slash is only a symbol; a root can be entered. (There is enough text around it for the defects of autocorrection, C19 and C28, not to matter.) *)
Definition slash : list Event := EvConnect (Some (tag "math" [])) :: typing "aa/bxxxxx" ++ repeat (EvKey KeyLeft) 5 ++ typing "sqrt" ++ [EvKey KeyRight].
Example C101_case : forall cfg, Forall (by_hand as_is by_character) slash /\ (forall text s, In s (by_character text) -> s <> []) /\
  doc_after cfg slash = Some (map typed_symbol (lit "aa/b") ++ root [] [] :: map typed_symbol (lit "xxxxx")).
Proof.
  intros cfg. split; [|split].
  - repeat constructor. intros nodes range E. vm_compute in E. now injection E as <- <-.
  - intros text s H. unfold by_character in H. apply in_map_iff in H as (x&<-&_). discriminate.
  - both_profiles; vm_compute; reflexivity.
Qed.
