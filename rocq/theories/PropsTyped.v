(** What is typed is what is seen (C99). *)
From Coq Require Import String.
From Verif Require Import Base Str Grid Node Focus Edit Caret Autocomplete Editor Rules NameMap Syntax Pratt Grammar SyntaxFind Render Layout Json FromMathML
  Spec SpecAuto SpecMove SpecEditor SpecSafety SpecLeave SpecField SpecDom RenderFacts SpecRender Component SpecComponent SpecEvent SpecPageField SpecTyped
  SpecMathML PropsMathML SpecStartup StartupFacts PropsStartup FormulaFacts SpecFormula SpecPicture Samples BaseFacts PropsAuto PropsEditor PropsRender PropsSafety PropsImport PropsComponent PropsField ComponentFacts PageFieldFacts
  PropsPageField PropsFormula PropsPicture.
Open Scope list_scope.
Open Scope nat_scope.

(** ** The field that keys are typed into *)
Section Keys.
Variable cfg : Cfg.
Variable xs xc : N -> bool.
Variable segment : str -> list str.
Hypothesis segments : forall d s, In s (segment d) -> s <> [].
Definition at_end (s : PageField) : Prop :=
  let f := s_field (pf_session s) in f_anchor f = List.length (f_text f) /\ f_cursor f = List.length (f_text f).
Lemma insert_end s vs : at_end s -> exists s', pf_run cfg true s [OpInsertAtCaret vs] = Some s' /\ at_end s' /\ pf_text s' = pf_text s ++ vs /\ pf_tasks s' = pf_tasks s.
Proof.
  intros [Ha Hc]. unfold pf_run. cbn [field_run field_step field_edit]. eexists. split; [reflexivity|]. destruct s as [[past [t a k] future] w b cl]. unfold at_end, pf_text, f_replace, f_lo, f_hi in *. cbn in *.
  subst a k. rewrite Nat.min_id, Nat.max_id, firstn_all, skipn_all, app_nil_r, app_length. auto.
Qed.
Lemma backspace_end s x t : at_end s -> pf_text s = t ++ [x] -> exists s', pf_run cfg true s [OpRemoveAtCaret RemoveLeft] = Some s' /\ at_end s' /\ pf_text s' = t /\ pf_tasks s' = pf_tasks s.
Proof.
  intros [Ha Hc] Et. destruct s as [[past [t' a k] future] w b cl]. unfold at_end, pf_text in *. cbn in *. subst t'. rewrite app_length, Nat.add_1_r in *. cbn in *. subst a k.
  unfold pf_run. cbn [field_run field_step pf_session s_field]. unfold field_edit, f_lo, f_hi. cbn [f_anchor f_cursor f_text]. rewrite Nat.min_id, Nat.max_id, Nat.ltb_irrefl.
  eexists. split; [reflexivity|]. unfold f_replace. cbn [f_text f_anchor f_cursor pf_session s_field pf_tasks]. rewrite firstn_app, firstn_all, Nat.sub_diag, skipn_all2 by (rewrite app_length; cbn; lia). cbn. rewrite !app_nil_r, Nat.add_0_r. auto.
Qed.
Lemma task_end s k l t' : at_end s -> after_keys segment (pf_text s) (k :: l) = Some t' ->
  exists s', pf_task cfg segment true s k = Some s' /\ at_end s' /\ pf_tasks s' = pf_tasks s /\ after_keys segment (pf_text s') l = Some t'.
Proof.
  intros E H. destruct k as [| |[data|]|]; cbn [after_keys pf_task] in *; try discriminate H.
  - destruct (pf_text s) as [|x0 t0] eqn:Et; [discriminate|]. destruct (@exists_last _ (x0 :: t0)) as (t&x&Ex); [discriminate|]. rewrite Ex in *. rewrite removelast_last in H.
    destruct (backspace_end s x t E Et) as (s'&H1&H2&H3&H4). exists s'. rewrite H3. auto.
  - destruct (insert_end s (segment data) E) as (s'&H1&H2&H3&H4). exists s'. unfold pf_insert.
    replace (forallb _ _) with true; [rewrite H3; auto|]. symmetry. apply forallb_forall. intros x Hx. apply segments in Hx. destruct x; [congruence|reflexivity].
  - exists s. auto.
  - exists s. auto.
Qed.
Lemma tasks_end l : forall s r t', at_end s -> after_keys segment (pf_text s) (l ++ r) = Some t' ->
  exists s', pf_run_tasks cfg segment true s l = Some s' /\ at_end s' /\ pf_tasks s' = pf_tasks s /\ after_keys segment (pf_text s') r = Some t'.
Proof.
  induction l as [|k l IH]; intros s r t' E H; [exists s; auto|]. cbn [app] in H. destruct (task_end s k (l ++ r) t' E H) as (s1&H1&E1&T1&H1'). cbn [pf_run_tasks]. rewrite H1.
  destruct (IH s1 r t' E1 H1') as (s'&H2&E2&T2&H2'). exists s'. rewrite T2. auto.
Qed.
Lemma events_end l : Forall key_or_timer l -> forall s t', at_end s -> after_keys segment (pf_text s) (pf_tasks s ++ keys_of l) = Some t' ->
  exists s', pf_events cfg xs xc segment true s l = Some s' /\ at_end s' /\ after_keys segment (pf_text s') (pf_tasks s') = Some t'.
Proof.
  induction 1 as [|e l He Hl IH]; intros s t' E H; [exists s; rewrite app_nil_r in H; auto|]. destruct e; try destruct He; cbn [pf_events pf_event keys_of flat_map app] in *.
  - apply (IH (set_pf_tasks (pf_tasks s ++ [t]) s) t'); [exact E|]. cbn [set_pf_tasks pf_tasks]. rewrite <- app_assoc. exact H.
  - destruct (tasks_end (pf_tasks s) (set_pf_tasks [] s) (keys_of l) t') as (s1&H1&E1&T1&H1'); [exact E|exact H|]. rewrite H1. apply IH; [exact E1|]. rewrite T1. exact H1'.
Qed.
Lemma keys_alone normalize l : Forall key_or_timer l -> forall c, events_alone (page cfg xs xc) default_renderers normalize segment c l.
Proof.
  assert (A : forall ops, Forall (fun op => match op with OpInsertAtCaret _ | OpRemoveAtCaret _ | OpGetSyntaxTree | OpGetCaret => True | _ => False end) ops -> forall ed, all_along (page cfg xs xc) (leaves_alone (page cfg xs xc)) ed ops).
  { induction 1 as [|op ops Ho Hops IH]; intros ed; [exact I|]. split; [destruct op; try destruct Ho; exact I|]. intros ed' out _. apply IH. }
  induction 1 as [|e l He Hl IH]; intros c; [exact I|]. split; [|apply IH]. intros ed _. destruct e; try destruct He; cbn [event_calls]; apply A; [apply Forall_nil|].
  apply Forall_forall. intros op Ho. apply in_flat_map in Ho as (k&_&Ho). destruct k as [| |[data|]|]; cbn [task_op] in Ho; try (exfalso; exact Ho);
    (destruct (co_connected c); cbn in Ho; repeat (destruct Ho as [<-|Ho]; [exact I|]); destruct Ho).
Qed.
End Keys.

(** The element shows the tree and the picture of the formula. *)
Lemma shown_formula env cfg xs xc before f c : env = page cfg xs xc -> classes_ok xs xc -> spelled xs xc f -> conventional 0 0 f ->
  shows env default_renderers c (spaces before ++ written f) -> co_tree c = tree before 0 f /\ co_drawn c = picture before f.
Proof.
  intros -> HC Hs Hc (t&x&Ht&Hx&E1&_&E2). cbn [page env_parse] in Ht. pose proof (C67_formulas xs xc before f HC Hs Hc) as E. rewrite E in Ht. injection Ht as <-. split; [exact E1|].
  rewrite E2. apply (C80_picture xs xc before f x HC Hs Hc). unfold draw. rewrite E. exact Hx.
Qed.
(** * C99: a formula that is typed into a new element *)
(** The keys may come in any portions and before any of the timers; mistakes may be corrected with Backspace. No rule interferes. *)
Theorem C99_typed : forall cfg xs xc normalize segment connected c l t before f, let env := page cfg xs xc in
  (forall d s, In s (segment d) -> s <> []) -> component_new env default_renderers connected = Ok c -> Forall key_or_timer l ->
  after_keys segment [] (keys_of l) = Some t -> map Symbol t = spaces before ++ written f ->
  classes_ok xs xc -> spelled xs xc f -> conventional 0 0 f ->
  let c' := run_events env default_renderers normalize segment c (l ++ [EvTimer]) in
  events_quiet env default_renderers normalize segment c (l ++ [EvTimer]) /\ co_tree c' = tree before 0 f /\ co_drawn c' = picture before f /\
  exists ed, co_editor c' = Some ed /\ ed_input ed = spaces before ++ written f /\ ed_caret ed = collapsed (mkMinPos [] (List.length t)).
Proof.
  intros cfg xs xc normalize segment connected c l t before f env Hseg Hnew Hl Ht Hw HC Hs Hc c'.
  assert (Hl' : Forall key_or_timer (l ++ [EvTimer])) by (apply Forall_app; split; [exact Hl|repeat constructor]).
  assert (Hk : keys_of (l ++ [EvTimer]) = keys_of l) by (unfold keys_of; rewrite flat_map_app; apply app_nil_r).
  set (s0 := mkPageField (mkSession [] (mkField [] 0 0) []) [] false None).
  destruct (events_end cfg xs xc segment Hseg l Hl s0 t) as (s1&H1&E1&T1); [split; reflexivity|exact Ht|].
  destruct (tasks_end cfg segment Hseg (pf_tasks s1) (set_pf_tasks [] s1) [] t) as (s&H2&E2&T2&T2'); [exact E1|rewrite app_nil_r; exact T1|]. cbn [after_keys] in T2'. injection T2' as T2'.
  assert (Hev : pf_events cfg xs xc segment true s0 (l ++ [EvTimer]) = Some s).
  { assert (App : forall a s s' b, pf_events cfg xs xc segment true s a = Some s' -> pf_events cfg xs xc segment true s (a ++ b) = pf_events cfg xs xc segment true s' b).
    { clear. induction a as [|e a IH]; intros s s' b H; cbn [pf_events app] in *; [now inversion H|]. destruct (pf_event cfg xs xc segment true s e); [|discriminate]. now apply IH. }
    rewrite (App _ _ _ _ H1). cbn [pf_events pf_event]. rewrite H2. reflexivity. }
  destruct (C96_new cfg xs xc normalize segment connected c (l ++ [EvTimer]) s Hnew (keys_alone cfg xs xc segment normalize _ Hl' c) Hev) as [Q [(ed&Hed&Hi&Hca) (Hu&_)]].
  split; [exact Q|]. change (co_editor c' = Some ed) in Hed. destruct Hu as (ed'&Hed'&Hsh&_). change (co_editor c' = Some ed') in Hed'. rewrite Hed in Hed'. injection Hed' as <-. rewrite T2', Hw in Hi. rewrite Hi in Hsh.
  destruct (shown_formula env cfg xs xc before f c' eq_refl HC Hs Hc Hsh) as [A B]. split; [exact A|]. split; [exact B|]. exists ed. split; [exact Hed|]. split; [exact Hi|].
  rewrite Hca. destruct E2 as [Ea Ek]. unfold field_caret, collapsed. rewrite Ea, Ek. change (f_text (s_field (pf_session s))) with (pf_text s). now rewrite T2'.
Qed.
Print Assumptions C99_typed.
(** "x-1)" with a Backspace and then "1" in one portion, before the first timer; the formula "x-11" *)
Example C99_typed_case : let l := [EvBeforeInput (InsertText (Some (lit "x"))); EvTimer; EvBeforeInput (InsertText (Some (lit "-1)"))); EvBeforeInput DeleteBackward; EvBeforeInput (InsertText (Some (lit "1")))] in
  let f := FInfix (name "x" 0) Minus 0 [] (number "11" "" 0) in
  Forall key_or_timer l /\ after_keys by_character [] (keys_of l) = Some (text "x-11") /\ map Symbol (text "x-11") = spaces 0 ++ written f /\
  classes_ok ascii_letter ascii_continue /\ spelled ascii_letter ascii_continue f /\ conventional 0 0 f /\ (forall d s, In s (by_character d) -> s <> []).
Proof.
  cbv zeta. split; [repeat constructor|]. split; [reflexivity|]. split; [reflexivity|]. split; [exact ascii_classes|]. split; [spell|]. split; [cbn; intuition lia|].
  intros d s H. unfold by_character in H. apply in_map_iff in H as (c&<-&_). discriminate.
Qed.

(** * C99: a formula that is set as MathML *)
(** The element shows its document, and its caret is where it can be in the new one, as in an element that is new. *)
Theorem C99_loaded : forall cfg xs xc normalize segment c ed nodes before f, let env := page cfg xs xc in
  reached env default_renderers normalize segment c -> co_editor c = Some ed -> wf_row (ed_input ed) -> shows env default_renderers c (ed_input ed) ->
  means normalize segment (XmlElement (lit "math") nodes) (spaces before ++ written f) -> caret_in_root (spaces before ++ written f) (ed_caret ed) ->
  classes_ok xs xc -> spelled xs xc f -> conventional 0 0 f -> drawable f ->
  let c' := fst (dispatch env default_renderers normalize segment (EvAttribute (Some (XmlElement (lit "math") nodes))) c) in
  document c' = Some (spaces before ++ written f) /\ co_tree c' = tree before 0 f /\ co_drawn c' = picture before f.
Proof.
  intros cfg xs xc normalize segment c ed nodes before f env R E Hw Sh Hm Hin HC Hs Hc Hd c'. pose proof (ComponentFacts.reached_fresh R E) as F.
  destruct (proj2 (C80_drawn xs xc before f HC Hs Hc) Hd) as (x&Hx).
  destruct (mathml_exact E F Hw Sh (C74_read normalize segment nodes _ Hm) (@row_of_wf xs xc before f Hs) (ex_intro _ x Hx)) as [H1 _].
  destruct (H1 Hin) as [D (ed'&Hed'&Hsh&_)]. split; [exact D|]. change (document c' = Some (spaces before ++ written f)) in D. change (co_editor c' = Some ed') in Hed'.
  unfold document in D. rewrite Hed' in D. cbn in D. injection D as D. rewrite D in Hsh. exact (shown_formula env cfg xs xc before f c' eq_refl HC Hs Hc Hsh).
Qed.
Print Assumptions C99_loaded.
(** x - y/2 with a fraction, in a new element and in one with the caret behind "a" *)
Example C99_loaded_case : forall cfg l, l = [] \/ l = typing "a" -> exists c ed, after cfg l = Some c /\ reached (ascii_page cfg) default_renderers as_is by_character c /\ co_editor c = Some ed /\
  wf_row (ed_input ed) /\ shows (ascii_page cfg) default_renderers c (ed_input ed) /\
  let f := FInfix (name "x" 0) Minus 0 [] (FAtom (ACells Fraction 1 [(0, name "y" 0); (0, number "2" "" 0)]) 0) in
  means as_is by_character (tag "math" [token "mi" "x"; token "mo" "-"; tag "mfrac" [token "mi" "y"; token "mn" "2"]]) (spaces 0 ++ written f) /\
  caret_in_root (spaces 0 ++ written f) (ed_caret ed) /\ spelled ascii_letter ascii_continue f /\ conventional 0 0 f /\ drawable f.
Proof.
  intros cfg l Hl. destruct (after cfg l) as [c|] eqn:E; [|exfalso; revert E; destruct Hl as [-> | ->]; both_profiles; vm_compute; discriminate].
  pose proof (after_reached _ _ _ E) as R. exists c.
  assert (H : exists ed, co_editor c = Some ed /\ wf_row (ed_input ed) /\ shows (ascii_page cfg) default_renderers c (ed_input ed) /\ mp_row (mc_start (ed_caret ed)) = [] /\ mp_row (mc_end (ed_caret ed)) = [] /\ mp_offset (mc_start (ed_caret ed)) <= 1 /\ mp_offset (mc_end (ed_caret ed)) <= 1).
  { revert E. clear R. destruct Hl as [-> | ->]; both_profiles; intros E; vm_compute in E; injection E as <-; eexists; (split; [reflexivity|]); (split; [apply wf_rowb_ok; reflexivity|]); (split; [do 2 eexists; repeat split; vm_compute; reflexivity|]); repeat split; vm_compute; auto. }
  destruct H as (ed&H1&H2&H3&H4&H5&H6&H7); exists ed; split; [reflexivity|]; split; [exact R|]; split; [exact H1|]; split; [exact H2|]; split; [exact H3|]; intros f.
  split; [|split; [split; (split; [assumption|cbn; lia])|clear; subst f; split; [spell|split; [cbn; intuition lia|cbn; intuition congruence]]]].
  change (spaces 0 ++ written f) with (concat [[sym "x"]; [sym "-"]; [Container Fraction (mkGrid [[sym "y"]; [sym "2"]] 1)]]).
  apply means_row; [exists "math"%string; cbn; auto|]. constructor; [plain|constructor; [plain|constructor; [|constructor]]].
  apply means_fraction. constructor; [plain|constructor; [plain|constructor]].
Qed.
