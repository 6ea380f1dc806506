(** Exactly which documents can be entered on the page (C101). *)
From Coq Require Import String.
From Verif Require Import Base Str Grid Node Focus Edit Caret Autocomplete Editor Rules NameMap Syntax Pratt Grammar SyntaxFind Render Layout Json FromMathML
  Spec SpecSyntax SpecMove SpecEditor SpecSafety SpecRender SpecDom SpecClick Component SpecComponent SpecContent SpecEnter BaseFacts TreeFacts EditFacts ParseTotal GrammarFacts RenderFacts HistoryFacts TypingFacts SafetyFacts Samples
  PropsAuto PropsEditor PropsRender PropsSafety PropsImport ComponentFacts ComponentProofs ComponentCheck PropsComponent ContentFacts EnterFacts EnterSteps EnterPage PropsContent PropsEnter.
Open Scope list_scope.
Open Scope nat_scope.

Lemma by_hand_brings Q env normalize segment e : by_hand normalize segment e -> event_gives Q env normalize segment e.
Proof.
  intros H. destruct e as [| | | | |[[j t]|]| | | | |[x|]| |[x|]]; try exact I; try destruct H; cbn in *; intros nodes range E; rewrite (H _ _ E); intros y [].
Qed.

(** On the page: what is typed are the pieces of a text. *)
Definition typed_part (segment : str -> list str) (x : Part) : Prop := hand_part x /\ match x with PartSymbol s => segment s = [s] | _ => True end.
(** On the page, with events other than loading and pasting, exactly those documents can be entered in which moreover every symbol is
    a single piece of text. The text is cut into pieces so that no piece is empty and cutting a piece again gives that piece,
    and so that small letters, and the symbols that the rules give, are a piece each. *)
Theorem C101_page : forall cfg xs xc normalize segment connected c doc,
  (forall text s, In s (segment text) -> s <> [] /\ segment s = [s]) ->
  (forall w, Forall (fun ch => 97 <= ch <= 122)%N w -> segment w = map (fun ch => [ch]) w) ->
  (forall rule s, In rule default_rules -> In (PartSymbol s) (row_parts (rule_result rule)) -> segment s = [s]) ->
  component_new (page cfg xs xc) default_renderers connected = Ok c ->
  ((exists l, Forall (by_hand normalize segment) l /\ document (run_events (page cfg xs xc) default_renderers normalize segment c l) = Some doc) <-> made_of (typed_part segment) doc).
Proof.
  intros cfg xs xc normalize segment connected c doc H1 H2 H3 Hn. set (env := page cfg xs xc). assert (Hd : env_rules env = default_rules) by reflexivity. split.
  - intros (l&Hl&D). refine (C100_page env _ normalize segment (typed_part segment) _ _ _ _ _ _ Hn _ D).
    + rewrite Hd. intros rule Hr Hlen x Hx. assert (X : hand_part x) by (refine (hand_rules rule Hr _ x Hx); intros _; apply Hlen; intros s Hs; exact (proj1 Hs)).
      split; [exact X|]. destruct x as [s|]; [exact (H3 rule s Hr Hx)|exact I].
    + intros text s Hs. destruct (H1 text s Hs) as [A B]. split; [exact A|exact B].
    + eapply Forall_impl; [|exact Hl]. intros e He. exact (by_hand_brings _ env normalize segment e He).
  - intros Hq.
    set (can := fun d m => exists l, Forall (by_hand normalize segment) l /\ shown cfg xs xc normalize segment (run_events env default_renderers normalize segment c l) d m).
    assert (snoc : forall d m d' m' more, can d m -> Forall (by_hand normalize segment) more -> (forall c1, shown cfg xs xc normalize segment c1 d m -> shown cfg xs xc normalize segment (run_events env default_renderers normalize segment c1 more) d' m') -> can d' m').
    { intros d m d' m' more (l&Hl&Hs) Hm H. exists (l ++ more). split; [apply Forall_app; auto|]. rewrite run_events_app. auto. }
    assert (valid : forall d p o row, row_get d p = Some row -> o <= List.length row -> valid_caret d (collapsed (mkMinPos p o))) by (intros d p o row Hr Ho; assert (X : valid_pos d (mkMinPos p o)) by (exists row; auto); split; exact X).
    assert (grown : forall d p l r vs d', nodes_replaced d p l r vs d' -> valid_caret d' (collapsed (mkMinPos p (l + List.length vs)))).
    { intros d p l r vs d' Hrep. pose proof Hrep as (row&Hl1&Hl2&Hr). eapply valid; [exact (replaced_get_new Hr)|]. rewrite !app_length, firstn_length. lia. }
    destruct (@enter_document can (fun s => s <> [] /\ segment s = [s])) with (doc := doc) as (q&l&Hl&Hs).
    + intros s Hs. exact (proj1 Hs).
    + intros d q p (l&Hl&Hs) Hu (row&Hr&_). destruct (@click_shown cfg xs xc normalize segment _ d (collapsed q) p Hs) as (pt&H).
      * eauto.
      * intros ed E Ec. subst d. destruct (click_step Hd (mkMinPos p 0) MChar (sh_wf Hs) Ec Hu) as (ed'&Hst&E1&(E2&_)). eauto.
      * exists (l ++ [EvPointerDown true pt]). split; [apply Forall_app; split; [exact Hl|repeat constructor]|]. rewrite run_events_app. exact H.
    + intros d p o s Hc Hu Hnd. refine (snoc _ _ d _ [EvKey KeyRight] Hc _ _); [repeat constructor|]. intros c1 Hs. cbn [run_events]. refine (right_shown Hs _ (sh_wf Hs) (sh_made Hs) _).
      * intros ed E Ec. subst d. destruct (right_step Hd (sh_wf Hs) Ec Hu Hnd) as (ed'&Hst&E1&(E2&_)). eauto.
      * unfold node_get in Hnd. destruct (row_get d p) as [row|] eqn:Hr; [|discriminate Hnd]. eapply valid; [exact Hr|]. assert (o < List.length row) by (apply nth_error_Some; rewrite Hnd; discriminate). lia.
    + intros d p o vs d' Hc Hu Hvs Hrep. assert (X : exists text, segment text = vs) by (destruct Hvs as [(s&(_&Hs)&->)|(w&Hw&->)]; [exists s; exact Hs|exists w; exact (H2 w Hw)]). destruct X as (text&X).
      refine (snoc _ _ d' _ [EvBeforeInput (InsertText (Some text)); EvTimer] Hc _ _); [repeat constructor|]. intros c1 Hs.
      refine (@input_shown cfg xs xc normalize segment c1 d _ (InsertText (Some text)) (OpInsertAtCaret vs) d' _ Hs _ _ _ _ _).
      * cbn. now rewrite X.
      * intros ed E Ec. subst d. exact (type_step Hd (sh_wf Hs) Ec Hu Hrep).
      * exact (nodes_replaced_wf Hrep (sh_wf Hs) (@wf_symbols vs)).
      * refine (made_nodes_replaced Hrep (sh_made Hs) (made_symbols _)). intros s Hin. rewrite <- X in Hin. exact (proj1 (H1 _ _ Hin)).
      * pose proof (grown _ _ _ _ _ _ Hrep) as G. rewrite map_length in G. exact G.
    + intros d p o s d' Hc Hu Hnd Hrep. refine (snoc _ _ d' _ [EvBeforeInput DeleteBackward; EvTimer] Hc _ _); [repeat constructor|]. intros c1 Hs.
      refine (@input_shown cfg xs xc normalize segment c1 d _ DeleteBackward (OpRemoveAtCaret RemoveLeft) d' _ Hs eq_refl _ _ _ _).
      * intros ed E Ec. subst d. exact (backspace_step Hd (sh_wf Hs) Ec Hu Hnd Hrep).
      * exact (nodes_replaced_wf Hrep (sh_wf Hs) wf_row_nil).
      * exact (made_nodes_replaced Hrep (sh_made Hs) (@made_nil _)).
      * pose proof (grown _ _ _ _ _ _ Hrep) as G. cbn [List.length] in G. rewrite Nat.add_0_r in G. exact G.
    + intros d p word n rest d' Hsp k Hc Hrow Hrep. refine (snoc _ _ d' _ [EvKey KeyRight] Hc _ _); [repeat constructor|]. intros c1 Hs. cbn [run_events].
      assert (W : wf_row [n] /\ made_of hand_part [n]) by (destruct Hsp as [[_ ->]|[_ ->]]; (split; [apply wf_rowb_ok; reflexivity|]); intros x Hx; cbn in Hx; repeat destruct Hx as [<-|Hx]; try destruct Hx; split; reflexivity).
      refine (right_shown Hs _ (nodes_replaced_wf Hrep (sh_wf Hs) (proj1 W)) (made_nodes_replaced Hrep (sh_made Hs) (proj2 W)) _).
      * intros ed E Ec. subst d. exact (correct_step Hd Hsp (sh_wf Hs) Ec Hrow Hrep).
      * pose proof Hrep as (row&_&_&Hr). pose proof (replaced_get_old Hr) as Ho. rewrite Hrow in Ho. injection Ho as <-. eapply valid; [exact (replaced_get_new Hr)|].
        rewrite !app_length, firstn_length, skipn_length, !app_length. unfold pad, letter_by_letter. rewrite !map_length, !repeat_length. cbn [List.length]. unfold k. lia.
    + exists []. split; [constructor|]. exact (new_shown normalize segment Hn).
    + intros x Hx. destruct (Hq x Hx) as [A B]. split; [exact A|]. destruct x as [s|]; [split; assumption|exact I].
    + exists l. split; [exact Hl|]. destruct (sh_editor Hs) as (ed&E&E1&_). unfold document. rewrite E. cbn. now rewrite E1.
Qed.
Print Assumptions C101_page.
(** With a piece for each character, the document of [C101_exact_case] can be entered. *)
Example C101_page_case : forall cfg connected c, component_new (ascii_page cfg) default_renderers connected = Ok c ->
  (forall text s, In s (by_character text) -> s <> [] /\ by_character s = [s]) /\
  (forall w, Forall (fun ch => 97 <= ch <= 122)%N w -> by_character w = map (fun ch => [ch]) w) /\
  (forall rule s, In rule default_rules -> In (PartSymbol s) (row_parts (rule_result rule)) -> by_character s = [s]) /\
  exists l, Forall (by_hand as_is by_character) l /\ document (run_events (ascii_page cfg) default_renderers as_is by_character c l) = Some by_hand_doc.
Proof.
  intros cfg connected c Hn.
  assert (H1 : forall text s, In s (by_character text) -> s <> [] /\ by_character s = [s]) by (intros text s Hs; apply in_map_iff in Hs as (x&<-&_); split; [discriminate|reflexivity]).
  assert (H2 : forall w, Forall (fun ch => 97 <= ch <= 122)%N w -> by_character w = map (fun ch => [ch]) w) by reflexivity.
  assert (H3 : forall rule s, In rule default_rules -> In (PartSymbol s) (row_parts (rule_result rule)) -> by_character s = [s]).
  { intros rule s Hr Hs. assert (B : forallb (fun r => forallb (fun x => match x with PartSymbol [_] => true | PartSymbol _ => false | _ => true end) (row_parts (rule_result r))) default_rules = true) by reflexivity.
    rewrite forallb_forall in B. specialize (B rule Hr). rewrite forallb_forall in B. specialize (B _ Hs). destruct s as [|ch [|]]; try discriminate B. reflexivity. }
  split; [exact H1|]. split; [exact H2|]. split; [exact H3|]. refine (proj2 (C101_page cfg _ _ as_is by_character connected c by_hand_doc H1 H2 H3 Hn) _).
  intros x Hx. cbv in Hx. repeat destruct Hx as [<-|Hx]; try destruct Hx; split; first [split; reflexivity|discriminate|reflexivity|exact I].
Qed.
