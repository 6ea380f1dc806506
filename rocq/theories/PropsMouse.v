(** What can be selected and replaced with the mouse (C102). *)
From Coq Require Import String.
From Verif Require Import Base Str Grid Node Focus Edit Caret Autocomplete Editor Rules NameMap Syntax Pratt Grammar SyntaxFind Render Layout Json FromMathML
  Spec SpecSyntax SpecMove SpecEditor SpecText SpecSafety SpecRender SpecDom SpecClick SpecStray SpecPlace Component SpecComponent SpecPage BaseFacts TreeFacts RenderFacts HistoryFacts SafetyFacts TextFacts TypingFacts NameMapFacts Samples
  PropsAuto PropsEditor PropsRender PropsSafety PropsImport ComponentFacts ComponentProofs ComponentCheck PropsComponent PageFacts PropsPage PropsStray PropsHit.
Open Scope list_scope.
Open Scope nat_scope.

(** A position that is not inside of one of the words lim, limsup and liminf *)
Definition outside_words (xs xc : N -> bool) (doc : InputRow) (pos : MinPos) : Prop :=
  forall row n i j, row_get doc (mp_row pos) = Some row -> parse (default_grammar xs xc) row = Ok n -> inside_limit n i j -> i <= mp_offset pos <= j -> False.
Lemma hits_one xs xc doc p pos pos' : hits xs xc doc p pos -> hits xs xc doc p pos' -> pos = pos'.
Proof. intros (x&E&H) (x'&E'&H'). rewrite E in E'. inv E'. rewrite H in H'. destruct pos, pos'. cbn in H'. now inv H'. Qed.
Lemma clickable_rows cfg xs xc doc : clickable (page cfg xs xc) doc -> forall p row, p <> [] -> row_get doc p = Some row -> script_row xs xc row = false.
Proof.
  intros H p row Hp Hr. unfold script_row. destruct (parse (default_grammar xs xc) row) as [n|] eqn:E; [|reflexivity]. destruct (H p row Hp Hr n E) as [H1 H2].
  apply orb_false_intro; apply Bool.not_true_is_false; intros X; apply path_eqb_eq in X; contradiction.
Qed.
Lemma position_hit cfg xs xc doc x pos : wf_row doc -> draw xs xc doc = Ok x -> clickable (page cfg xs xc) doc -> valid_pos doc pos -> outside_words xs xc doc pos ->
  exists p, boxes (to_bounds p) (to_place p) /\ hits xs xc doc p pos.
Proof.
  intros Hwf H Hc (row&Hr&Ho) Hw. destruct (C72_every xs xc doc x (mp_row pos) row (mp_offset pos) Hwf H (clickable_rows _ _ _ _ Hc) Hr Ho) as (tb&tp&Hb&E).
  - intros n i j En Hi Hl. eapply Hw; eauto.
  - exists (Component.mkPoint tb tp). split; [exact Hb|]. exists x. auto.
Qed.
Lemma reached_wf cfg xs xc normalize segment connected c0 l ed : let env := page cfg xs xc in
  component_new env default_renderers connected = Ok c0 -> all_fine env normalize segment c0 l ->
  co_editor (run_events env default_renderers normalize segment c0 l) = Some ed -> wf_row (ed_input ed) /\ exists x, draw xs xc (ed_input ed) = Ok x.
Proof.
  intros env Hn Hf E.
  assert (K : forall Q : Part -> Prop, (forall s, Q (PartSymbol s) -> s <> []) -> healthy cfg xs xc Q (run_events env default_renderers normalize segment c0 l) -> wf_row (ed_input ed) /\ exists x, draw xs xc (ed_input ed) = Ok x).
  { intros Q HQ ((ed1&E1&S1&_)&ed2&E2&S2&_). fold env in E. rewrite E in E1, E2. inv E1. inv E2. split; [exact (proj1 (so_doc S2))|]. destruct S1 as (n&x&Hn'&Hx&_). exists x. eapply draw_ok; eauto. }
  destruct Hf as [Hf|Hf]; [eapply (K nonempty); [auto|]|eapply (K tidy); [apply tidy_nonempty|]]; [now apply (fine_healthy _ _ _ _ _ _ _ _ Hn)|now apply (tidy_healthy _ _ _ _ _ _ _ _ Hn)].
Qed.

(** For every two positions of the document outside of these words there are points such that dragging from the one to the other
    selects what is between the positions and changes nothing else. The document can be clicked (no row of a container is a script as a
    whole), no completely typed token ends at the caret or at the first position. *)
Theorem C102_select : forall cfg xs xc normalize segment connected c0 l ed pos pos', let env := page cfg xs xc in
  component_new env default_renderers connected = Ok c0 -> all_fine env normalize segment c0 l ->
  let c := run_events env default_renderers normalize segment c0 l in
  co_editor c = Some ed -> ~ autocorrect_pending env ed -> clickable env (ed_input ed) -> calm env (ed_input ed) pos ->
  valid_pos (ed_input ed) pos -> valid_pos (ed_input ed) pos' -> outside_words xs xc (ed_input ed) pos -> outside_words xs xc (ed_input ed) pos' ->
  exists p p', boxes (to_bounds p) (to_place p) /\ boxes (to_bounds p') (to_place p') /\
  forall ps, let c' := run_events env default_renderers normalize segment c (drag_events p ps p') in
  exists ed', co_editor c' = Some ed' /\ ed_input ed' = ed_input ed /\ ed_caret ed' = mkMinCaret pos pos' /\ up_to_date env default_renderers c'.
Proof.
  intros cfg xs xc normalize segment connected c0 l ed pos pos' env Hn Hf c E Ha Hcl Hca V V' W W'. destruct (reached_wf _ _ _ _ _ _ _ _ _ Hn Hf E) as (Hwf&x&Hx).
  destruct (position_hit cfg _ _ _ _ _ Hwf Hx Hcl V W) as (p&Hb&Hp). destruct (position_hit cfg _ _ _ _ _ Hwf Hx Hcl V' W') as (p'&Hb'&Hp').
  exists p, p'. split; [exact Hb|]. split; [exact Hb'|]. intros ps c'.
  destruct (C77_drag_partial cfg xs xc normalize segment connected c0 l p ps p' ed Hn Hf E Ha Hcl) as (q&q'&ed'&H1&H2&_&_&E'&I'&C'&U'&_); [intros q Hq; now rewrite (hits_one _ _ _ _ _ _ Hq Hp)|].
  rewrite (hits_one _ _ _ _ _ _ H1 Hp), (hits_one _ _ _ _ _ _ H2 Hp') in C'. exists ed'. auto.
Qed.
Print Assumptions C102_select.
(** And for every stretch of a row there is a drag after which typing replaces exactly this stretch by what is typed. *)
Theorem C102_replace : forall cfg xs xc normalize segment connected c0 l ed q i j, let env := page cfg xs xc in
  component_new env default_renderers connected = Ok c0 -> all_fine env normalize segment c0 l ->
  let c := run_events env default_renderers normalize segment c0 l in
  co_editor c = Some ed -> co_tasks c = [] -> ~ autocorrect_pending env ed -> clickable env (ed_input ed) -> calm env (ed_input ed) (mkMinPos q i) -> i <= j ->
  valid_pos (ed_input ed) (mkMinPos q i) -> valid_pos (ed_input ed) (mkMinPos q j) -> outside_words xs xc (ed_input ed) (mkMinPos q i) -> outside_words xs xc (ed_input ed) (mkMinPos q j) ->
  exists p p', boxes (to_bounds p) (to_place p) /\ boxes (to_bounds p') (to_place p') /\
  forall ps data, let c' := run_events env default_renderers normalize segment c (drag_events p ps p' ++ type_events data) in
  exists ed', co_editor c' = Some ed' /\ nodes_replaced (ed_input ed) q i j (map Symbol (segment data)) (ed_input ed') /\ ed_caret ed' = collapsed (mkMinPos q (i + length (segment data))).
Proof.
  intros cfg xs xc normalize segment connected c0 l ed q i j env Hn Hf c E T Ha Hcl Hca L V V' W W'. destruct (reached_wf _ _ _ _ _ _ _ _ _ Hn Hf E) as (Hwf&x&Hx).
  destruct (position_hit cfg _ _ _ _ _ Hwf Hx Hcl V W) as (p&Hb&Hp). destruct (position_hit cfg _ _ _ _ _ Hwf Hx Hcl V' W') as (p'&Hb'&Hp').
  exists p, p'. split; [exact Hb|]. split; [exact Hb'|]. intros ps data c'.
  destruct (C77_type_partial cfg xs xc normalize segment connected c0 l p ps p' data ed Hn Hf E T Ha Hcl) as (r&r'&H1&H2&H); [intros r Hr; now rewrite (hits_one _ _ _ _ _ _ Hr Hp)|].
  rewrite (hits_one _ _ _ _ _ _ H1 Hp), (hits_one _ _ _ _ _ _ H2 Hp') in H. cbn [mp_row mp_offset] in H. rewrite Nat.min_l, Nat.max_r in H by lia. exact (H eq_refl).
Qed.
Print Assumptions C102_replace.
(** The two positions inside of "lim" are drawn at the same place, and clicks give only the first of them: it is not possible to
    put the caret between "i" and "m", whatever the layout. *)
Theorem C102_refuted : exists doc, valid_pos doc (here 2) /\ (exists x, draw ascii_letter ascii_continue doc = Ok x) /\ forall p, ~ hits ascii_letter ascii_continue doc p (here 2).
Proof.
  exists [sym "l"; sym "i"; sym "m"]. split; [eexists; split; [reflexivity|cbn; lia]|].
  assert (D : exists x, draw ascii_letter ascii_continue [sym "l"; sym "i"; sym "m"] = Ok x /\ forall tb tp, get_layout_position tb tp x <> Ok ([], 2)).
  { eexists. split; [vm_compute; reflexivity|]. intros tb tp. unfold get_layout_position, get_layout_element. cbn -[Nat.ltb].
    repeat match goal with |- context [if 0 <? ?b then _ else _] => destruct (0 <? b) end; cbn -[Nat.ltb];
    repeat (match goal with |- context [if ?a <? ?b then _ else _] => destruct (Nat.ltb_spec a b) end; cbn -[Nat.ltb]); intros X; inv X; lia. }
  destruct D as (x&Hx&D). split; [eauto|]. intros p (x'&Hx'&H). rewrite Hx in Hx'. inv Hx'. exact (D _ _ H).
Qed.
Print Assumptions C102_refuted.
(** The hypotheses are met: the last symbol of x/y + a can be selected by dragging, and replaced. *)
Example C102_case : forall cfg, exists c0, component_new (ascii_page cfg) default_renderers true = Ok c0 /\ all_fine (ascii_page cfg) as_is by_character c0 [half_plus_a] /\
  exists ed, let c := run_events (ascii_page cfg) default_renderers as_is by_character c0 [half_plus_a] in co_editor c = Some ed /\ co_tasks c = [] /\
  ed_input ed = [fraction [sym "x"] [sym "y"]; sym "+"; sym "a"] /\ ~ autocorrect_pending (ascii_page cfg) ed /\ clickable (ascii_page cfg) (ed_input ed) /\
  calm (ascii_page cfg) (ed_input ed) (here 2) /\ valid_pos (ed_input ed) (here 2) /\ valid_pos (ed_input ed) (here 3) /\
  outside_words ascii_letter ascii_continue (ed_input ed) (here 2) /\ outside_words ascii_letter ascii_continue (ed_input ed) (here 3).
Proof.
  intros cfg. destruct (C77_case cfg) as (c0&E&F&c&ed&->&H1&H2&H3&H4&_&H5&_). exists c0. split; [exact E|]. split; [exact F|]. exists ed. cbv zeta.
  assert (I : ed_input ed = [fraction [sym "x"] [sym "y"]; sym "+"; sym "a"]).
  { clear - E H1. revert E H1. both_profiles; intros E H1; vm_compute in E; injection E as <-; vm_compute in H1; injection H1 as <-; reflexivity. }
  repeat (split; [assumption|]). rewrite I. split; [eexists; split; [reflexivity|cbn; lia]|]. split; [eexists; split; [reflexivity|cbn; lia]|].
  split; intros row n i j Hr Hn (w&s&Hw&Hl&_) _; cbn in Hr; injection Hr as <-; vm_compute in Hn; injection Hn as <-; inversion Hl as [|? ? ? ? m ? ? ? Hin Hm]; subst;
  repeat destruct Hin as [<-|Hin]; try destruct Hin; inversion Hm; subst; cbn in Hw; repeat destruct Hw as [Hw|Hw]; try discriminate Hw; exact Hw.
Qed.
