(** Exactly which documents can be entered with the keyboard and the mouse (C101). *)
From Coq Require Import String.
From Verif Require Import Base Str Grid Node Focus Edit Caret Autocomplete Editor Rules NameMap Syntax Pratt Grammar SyntaxFind Render Layout Json FromMathML
  Spec SpecSyntax SpecMove SpecEditor SpecSafety SpecRender SpecDom Component SpecComponent SpecContent SpecEnter BaseFacts TreeFacts ParseTotal GrammarFacts RenderFacts HistoryFacts TypingFacts SafetyFacts Samples
  PropsAuto PropsEditor PropsRender PropsSafety PropsImport ComponentFacts ComponentProofs ComponentCheck PropsComponent ContentFacts EnterFacts EnterSteps PropsContent.
Open Scope list_scope.
Open Scope nat_scope.

Lemma hand_rules : rules_give hand_part default_rules.
Proof.
  intros rule Hr Hl. assert (H2 : 2 <= List.length (rule_parser rule)) by (apply Hl; intros s Hs; exact Hs). clear Hl. intros x Hx.
  assert (B : forallb (fun r => (List.length (rule_parser r) <? 2) || forallb (fun x => match x with PartSymbol s => negb (str_eqb s []) | PartContainer RootV n w => (n =? 2) && (w =? 2) | PartContainer Table n w => (n =? 1) && (w =? 1) | _ => false end) (row_parts (rule_result r))) default_rules = true) by reflexivity.
  rewrite forallb_forall in B. specialize (B rule Hr). apply orb_prop in B as [B|B]; [apply Nat.ltb_lt in B; lia|]. rewrite forallb_forall in B. specialize (B x Hx).
  destruct x as [[|ch s]|[] n w]; try discriminate B; try discriminate; apply andb_prop in B as [B1 B2]; apply Nat.eqb_eq in B1, B2; subst; split; reflexivity.
Qed.
Lemma manual_gives {SyntaxNode} (env : Env SyntaxNode) op : manual op -> gives hand_part env op.
Proof. destruct op; intros H; try exact I; try (exfalso; exact H). cbn. intros s Hs. exact (proj1 (Forall_forall _ _) H s Hs). Qed.
Lemma run_snoc {SyntaxNode} (env : Env SyntaxNode) ops : forall ed ed1 op ed2 out, run env ed ops = Ok ed1 -> step env ed1 op = Ok (ed2, out) -> run env ed (ops ++ [op]) = Ok ed2.
Proof.
  induction ops as [|o ops IH]; intros ed ed1 op ed2 out H1 H2; cbn [app run] in *.
  - injection H1 as ->. rewrite H2. reflexivity.
  - apply bind_ok in H1 as ([ed0 out0]&E&H1). rewrite E. cbn [bind]. exact (IH _ _ _ _ _ H1 H2).
Qed.

(** The documents that can be made with the operations of the keyboard and the mouse are exactly those whose content, however
    deeply nested, is nonempty symbols, roots with their two cells, and tables of a single cell. *)
Theorem C101_exact : forall (SyntaxNode : Type) (env : Env SyntaxNode) doc, env_rules env = default_rules ->
  ((exists ops ed, Forall manual ops /\ run env (@editor_new SyntaxNode) ops = Ok ed /\ ed_input ed = doc) <-> made_of hand_part doc).
Proof.
  intros SyntaxNode env doc Hd. split.
  - intros (ops&ed&Hm&Hr&<-). refine (C100_content SyntaxNode env hand_part ops ed _ _ Hr); [rewrite Hd; exact hand_rules|]. eapply Forall_impl; [|exact Hm]. intros op. apply manual_gives.
  - intros Hq.
    set (can := fun d c => exists ops ed, Forall manual ops /\ run env (@editor_new SyntaxNode) ops = Ok ed /\ ed_input ed = d /\ ed_caret ed = c /\ wf_row d).
    assert (snoc : forall d c d' c' op, can d c -> manual op -> (forall ed, ed_input ed = d -> ed_caret ed = c -> wf_row d -> exists ed', step env ed op = Ok (ed', OutNone _) /\ ed_input ed' = d' /\ ed_caret ed' = c') -> (wf_row d -> wf_row d') -> can d' c').
    { intros d c d' c' op (ops&ed&Hm&Hr&Ed&Ec&Hw) Hop Hs Hw'. destruct (Hs ed Ed Ec Hw) as (ed'&Hst&E1&E2). exists (ops ++ [op]), ed'. split; [apply Forall_app; auto|]. split; [exact (run_snoc env ops _ _ _ _ _ Hr Hst)|auto]. }
    destruct (@enter_document can (fun s => s <> [])) with (doc := doc) as (q&ops&ed&Hm&Hr&Ed&_).
    + auto.
    + intros d q p Hc Hu Hv. refine (snoc d _ d _ (OpStartSelection (mkMinPos p 0) MChar) Hc I _ (fun H => H)). intros ed <- Ec Hw.
      destruct (click_step Hd (mkMinPos p 0) MChar Hw Ec Hu) as (ed'&Hs&E&(E1&_)). eauto.
    + intros d p o s Hc Hu Hn. refine (snoc d _ d _ (OpMoveCaret DRight MChar) Hc I _ (fun H => H)). intros ed <- Ec Hw.
      destruct (right_step Hd Hw Ec Hu Hn) as (ed'&Hs&E&(E1&_)). eauto.
    + intros d p o vs d' Hc Hu Hvs Hrep. refine (snoc d _ d' _ (OpInsertAtCaret vs) Hc _ _ (fun H => nodes_replaced_wf Hrep H (@wf_symbols vs))).
      * destruct Hvs as [(s&Hs&->)|(w&_&->)]; [repeat constructor; exact Hs|]. apply Forall_forall. intros s Hs. apply in_map_iff in Hs as (ch&<-&_). discriminate.
      * intros ed <- Ec Hw. exact (type_step Hd Hw Ec Hu Hrep).
    + intros d p o s d' Hc Hu Hn Hrep. refine (snoc d _ d' _ (OpRemoveAtCaret RemoveLeft) Hc I _ (fun H => nodes_replaced_wf Hrep H wf_row_nil)).
      intros ed <- Ec Hw. exact (backspace_step Hd Hw Ec Hu Hn Hrep).
    + intros d p word n rest d' Hsp k Hc Hrow Hrep. refine (snoc d _ d' _ (OpMoveCaret DRight MChar) Hc I _ (fun H => nodes_replaced_wf Hrep H _)).
      * intros ed <- Ec Hw. exact (correct_step Hd Hsp Hw Ec Hrow Hrep).
      * destruct Hsp as [[_ ->]|[_ ->]]; apply wf_rowb_ok; reflexivity.
    + exists [], (@editor_new SyntaxNode). split; [constructor|]. split; [reflexivity|]. split; [reflexivity|]. split; [reflexivity|exact wf_row_nil].
    + intros x Hx. split; [exact (Hq x Hx)|]. specialize (Hq x Hx). destruct x; [exact Hq|exact I].
    + eauto.
Qed.
Print Assumptions C101_exact.
(** A root with a table in its index and a root in its radicand, and text around it, can be entered; a fraction cannot, nor can a table of two cells. *)
Definition by_hand_doc : InputRow := [typed_symbol 50%N; root [Container Table (mkGrid [[typed_symbol 110%N]] 1)] [typed_symbol 120%N; root [] [typed_symbol 121%N]]; typed_symbol 43%N].
Example C101_exact_case : forall cfg, made_of hand_part by_hand_doc /\
  (exists ops ed, Forall manual ops /\ run (default_env cfg) (@editor_new unit) ops = Ok ed /\ ed_input ed = by_hand_doc) /\
  (forall v cells w ops ed, In (v, List.length cells, w) [(Fraction, 2, 2); (Sub, 1, 1); (Sup, 1, 1); (Table, 2, 2)] -> Forall manual ops -> run (default_env cfg) (@editor_new unit) ops = Ok ed -> ed_input ed <> [Container v (mkGrid cells w)]).
Proof.
  intros cfg. assert (M : made_of hand_part by_hand_doc) by (intros x Hx; cbv in Hx; repeat destruct Hx as [<-|Hx]; try destruct Hx; first [split; reflexivity|discriminate]).
  split; [exact M|]. split; [now apply C101_exact|].
  intros v cells w ops ed Hin Hm Hr E. assert (H : made_of hand_part [Container v (mkGrid cells w)]) by (apply (C101_exact unit (default_env cfg)); [reflexivity|eauto]).
  specialize (H (PartContainer v (List.length cells) w) (or_introl eq_refl)). clear Hr E. repeat destruct Hin as [Hin|Hin]; try (injection Hin as <- E <-; rewrite <- E in H); try destruct Hin; cbn in H; try exact H; destruct H as [H _]; discriminate H.
Qed.
