(** C61 and C62: exactly when a handler throws and when the editor is lost. *)
From Coq Require Import String.
From Verif Require Import Base Str Grid Node Focus Edit Caret Autocomplete Editor Rules NameMap Syntax Pratt Grammar SyntaxFind Render Layout Json FromMathML
  Spec SpecSyntax SpecMove SpecEditor SpecSafety SpecRender SpecDom Component SpecComponent BaseFacts TreeFacts ParseTotal GrammarFacts RenderFacts HistoryFacts SafetyFacts Samples
  PropsAuto PropsEditor PropsRender PropsSafety PropsImport ComponentFacts ComponentProofs ComponentCheck PropsComponent SpecWorks SpecSurvive PropsWorks.
Open Scope list_scope.
Open Scope nat_scope.

Section Survive.
Variable cfg : Cfg.
Variable xs xc : N -> bool.
Variable normalize : str -> str.
Variable segment : str -> list str.
Notation env := (page cfg xs xc).
Notation rs := default_renderers.
Notation known := (known env).
Notation works := (works env).
Notation healthy := (healthy cfg xs xc tidy).
Notation fine_event := (fine_event env rs normalize segment).
Notation dispatch := (dispatch env rs normalize segment).
Implicit Type ed : MathEditor SyntaxNode.

Lemma works_avoids ed op : (match op with OpMoveCaret _ m => m = MChar | OpSelectWithCaret _ _ => False | OpPaste d _ => env_deserialize env d <> None | _ => True end) ->
  works ed op -> avoids_panic env ed op.
Proof.
  destruct op as [d mode|d mode|mode|vs| | | |p mode|p| | |data json| |accept|d| | |range vs]; cbn [SpecWorks.works avoids_panic]; intros Hop Hw; try exact Hw.
  - split; [exact Hop|]. intros Ho Hd m Hm. exact (proj2 (Hw m Hm) Ho Hd).
  - destruct Hop.
  - destruct Hw as [Hj [Hw|Hw]]; [exact (conj Hj Hw)|contradiction].
Qed.
Lemma task_safe t c : fine_opt known c (task_op segment t) -> fine_opt works c (task_op segment t) -> fine_opt (safe_op env tidy) c (task_op segment t).
Proof.
  intros H1 H2 ed op E Eo. destruct (H1 ed op E Eo) as [A K]. split; [exact A|split; [exact K|]]. apply works_avoids; [|exact (H2 ed op E Eo)]. destruct t as [| |[]|]; cbn in Eo; inv Eo; exact I.
Qed.
Lemma tasks_safe l : forall c, fine_tasks env rs segment known c l -> fine_tasks env rs segment works c l -> fine_tasks env rs segment (safe_op env tidy) c l.
Proof.
  induction l as [|t l IH]; intros c H1 H2; [exact I|]. destruct H1 as [H1 L1], H2 as [H2 L2]. split; [now apply task_safe|now apply IH].
Qed.
Lemma event_safe c e : fine_event works c e -> e = EvCopy true \/ fine_event known c e -> fine_event (safe_op env tidy) c e.
Proof.
  intros Hw [->|Hk]; [exact Hw|].
  assert (G : forall ed op, known ed op -> works ed op -> (match op with OpMoveCaret _ m => m = MChar | OpSelectWithCaret _ _ => False | OpPaste d _ => env_deserialize env d <> None | _ => True end) -> safe_op env tidy ed op)
    by (intros ed op [A K] W H; split; [exact A|split; [exact K|now apply works_avoids]]).
  destruct e as [k|t| |[]|[]|[[json text]|]|[] p|[] p|d p|[] p|m| |m]; cbn [SpecComponent.fine_event] in *; try exact I; try exact Hk.
  - intros ed op E Eo. apply (G ed op (Hk _ _ E Eo) (Hw _ _ E Eo)). destruct k; cbn in Eo; inv Eo; reflexivity || exact I.
  - now apply tasks_safe.
  - intros ed E. exact (G _ _ (Hk _ E) (Hw _ E) I).
  - destruct Hk as [Hd Hk], Hw as [_ Hw]. split; [exact Hd|]. intros ed op E Eo. inv Eo. exact (G _ _ (Hk _ _ E eq_refl) (Hw _ _ E eq_refl) Hd).
  - intros ed E. destruct (Hk _ E) as [Hc Hk'], (Hw _ E) as [_ Hw']. split; [exact Hc|]. intros p0 Hp. exact (G _ _ (Hk' _ Hp) (Hw' _ Hp) I).
  - destruct Hk as (math&root&errors&->&Ef&Hk), Hw as (math'&root'&errors'&Em&Ef'&Hw). inv Em. rewrite Ef in Ef'. inv Ef'. exists math', root', errors'. split; [reflexivity|split; [exact Ef|]].
    intros ed E. exact (G _ _ (Hk _ E) (Hw _ E) I).
  - destruct Hk as (math&root&errors&->&Ef&Hk), Hw as (math'&root'&errors'&Em&Ef'&Hw). inv Em. rewrite Ef in Ef'. inv Ef'. exists math', root', errors'. split; [reflexivity|split; [exact Ef|]].
    intros ed E. exact (G _ _ (Hk _ E) (Hw _ E) I).
Qed.
Lemma event_goes_on c e : healthy c -> fine_event works c e -> e = EvCopy true \/ fine_event known c e -> exists c', dispatch e c = (c', Ok tt) /\ healthy c'.
Proof.
  intros Hh Hw Hk. exact (@event_total cfg xs xc normalize segment tidy (safe_op env tidy) tidy_rules tidy_nonempty (fun ed op _ H => H)
    (fun ed op ed' out _ _ _ S => tidy_row_drawn xs xc (so_doc S)) e c Hh (event_safe c e Hw Hk)).
Qed.

(** There still is an editor, or nothing was thrown. *)
Definition went {A} (r : Component * Res A) : Prop := co_editor (fst r) <> None \/ exists a, snd r = Ok a.
Lemma called A op (f : Out SyntaxNode -> Handler A) c ed : co_editor c = Some ed -> went (handle (call env op) f c) -> exists x, step env ed op = Ok x.
Proof.
  intros E H. unfold went, handle, call in H. rewrite E in H. destruct (step env ed op) as [[ed1 out]|k]; [eauto|]. cbn in H. destruct H as [H|[a H]]; [now elim H|discriminate H].
Qed.
Lemma called_works A op (f : Out SyntaxNode -> Handler A) c ed : healthy c -> co_editor c = Some ed -> went (handle (call env op) f c) -> works ed op.
Proof.
  intros (_&ed0&E0&S&F) E H. rewrite E in E0. inv E0. destruct (called _ _ _ _ _ E H) as (x&Hx). exact (works_needed env tidy (proj1 C20_default_rules) tidy_nonempty ed0 op x S (fun _ => F) Hx).
Qed.
Lemma tasks_went l : forall c, healthy c -> fine_tasks env rs segment known c l -> went (run_tasks env rs segment l c) -> fine_tasks env rs segment works c l.
Proof.
  induction l as [|t l IH]; intros c Hh Hk H; [exact I|]. destruct Hk as [Hk Hl]. cbn [run_tasks] in H. rewrite handle_modify in H. pose proof (healthy_tasks l Hh) as Hh'.
  assert (Hw : fine_opt works c (task_op segment t)).
  { intros ed op E Eo. assert (E' : co_editor (set_tasks l c) = Some ed) by exact E. destruct t as [| |[data|]|]; cbn in Eo; inv Eo; cbn [do_task] in H; rewrite handle_assoc in H; exact (called_works _ _ _ _ _ Hh' E' H). }
  split; [exact Hw|].
  destruct (@task_total cfg xs xc segment tidy (safe_op env tidy) tidy_rules tidy_nonempty (fun ed op _ H => H)
    (fun ed op ed' out _ _ _ S => tidy_row_drawn xs xc (so_doc S)) t (set_tasks l c) Hh' (task_safe t c Hk Hw)) as (c1&E1&H1).
  rewrite (handle_eq _ E1) in H. rewrite E1 in Hl |- *. exact (IH _ H1 Hl H).
Qed.
Lemma event_went c e : healthy c -> known_event env rs normalize segment c e -> went (dispatch e c) ->
  (match e with EvPaste _ | EvConnect _ | EvAttribute _ => fine_event known c e \/ snd (dispatch e c) = Ok tt | _ => True end) -> fine_event works c e.
Proof.
  intros Hh Hk H Hx. pose proof Hh as (U&ed0&E0&S&F).
  assert (M : forall m, (forall math root errors ed, m = Some math -> from_element normalize segment math = Ok (root, errors) -> co_editor c = Some ed -> known ed (OpSpliceAtRange (mkMinRange [] 0 (List.length (ed_input ed))) root)) ->
     (fine_event known c (EvAttribute m) \/ exists c1, snd (set_mathml env rs normalize segment m c1) = Ok tt) -> fine_event works c (EvAttribute m)).
  { intros m Hm [(math&root&errors&->&Ef&_)|(c1&H1)].
    - exists math, root, errors. split; [reflexivity|split; [exact Ef|]]. intros ed E. exact I.
    - destruct (set_mathml env rs normalize segment m c1) as [c2 r] eqn:H2. cbn in H1. subst r. apply mathml_ok in H2 as (math&root&errors&ed&ed'&out&->&Ef&_). exists math, root, errors. split; [reflexivity|split; [exact Ef|]]. intros ed1 E. exact I. }
  destruct e as [k|t| |[]|[]|[[json text]|]|[] p|[] p|d p|[] p|m| |m]; cbn [SpecComponent.fine_event known_event] in *; try exact I; try exact Hk.
  - intros ed op E Eo. cbn [Component.dispatch] in H. unfold on_key in H. destruct k; cbn in Eo; inv Eo; rewrite handle_assoc in H; exact (called_works _ _ _ _ _ Hh E H).
  - cbn [Component.dispatch] in H. rewrite handle_get in H. exact (tasks_went _ _ Hh Hk H).
  - intros ed E. cbn [Component.dispatch] in H. unfold handle_copy in H. exact (called_works _ _ _ _ _ Hh E H).
  - intros ed E. cbn [Component.dispatch] in H. unfold handle_copy in H. rewrite handle_assoc in H. split; [exact (called_works _ _ _ _ _ Hh E H)|]. intros _ q _. exact I.
  - cbn [Component.dispatch] in H, Hx. assert (H' := H). unfold call_paste in H'. rewrite handle_assoc in H'. split.
    + destruct Hx as [[Hx _]|Hx]; [exact Hx|]. intros Hd.
      destruct (called _ _ _ _ _ E0 H') as ([ed1 out]&Hs). assert (Ho : out = OutNo _). { cbn [step] in Hs. apply bind_ok in Hs as ([ed2 b]&Hp&Hs). unfold paste in Hp. apply bind_ok in Hp as ([ed3 a]&_&Hp). cbn [negb] in Hp.
        rewrite Hd in Hp. inv Hp. inv Hs. reflexivity. }
      subst out. unfold call_paste in Hx. rewrite handle_assoc in Hx. unfold handle at 1, call in Hx. rewrite E0, Hs in Hx. cbn in Hx. discriminate Hx.
    + intros ed op E Eo. inv Eo. exact (called_works _ _ _ _ _ Hh E H').
  - intros ed E. destruct (Hk _ E) as [Hc _]. split; [exact Hc|]. intros q _. exact I.
  - cbn [Component.dispatch] in Hx. apply M; [exact Hk|]. destruct Hx as [Hx|Hx]; [left; exact Hx|right]. rewrite handle_modify in Hx. eexists. exact Hx.
  - cbn [Component.dispatch] in Hx. apply M; [exact Hk|]. destruct Hx as [Hx|Hx]; [left; exact Hx|right]. eexists. exact Hx.
Qed.
Lemma fine_known c e : e = EvCopy true \/ fine_event known c e -> known_event env rs normalize segment c e.
Proof.
  intros [->|H]; [exact I|]. destruct e as [k|t| |[]|[]|[[json text]|]|[] p|[] p|d p|[] p|m| |m]; cbn [SpecComponent.fine_event known_event] in *; try exact H; try exact I.
  - exact (proj2 H).
  - destruct H as (math&root&errors&->&Ef&H). intros math' root' errors' ed Em Ef' E. inv Em. rewrite Ef in Ef'. inv Ef'. exact (H _ E).
  - destruct H as (math&root&errors&->&Ef&H). intros math' root' errors' ed Em Ef' E. inv Em. rewrite Ef in Ef'. inv Ef'. exact (H _ E).
Qed.
Lemma survives l : forall c, healthy c -> known_all env rs normalize segment c l ->
  ((exists ed, co_editor (run_events env rs normalize segment c l) = Some ed) <-> fine_all env rs normalize segment works c l).
Proof.
  induction l as [|e l IH]; intros c Hh Hk; cbn [run_events known_all fine_all] in *.
  - destruct Hh as (_&ed&E&_). split; [auto|eauto].
  - destruct Hk as [Hk Hl].
    assert (Next : fine_event works c e -> (exists ed, co_editor (run_events env rs normalize segment (fst (dispatch e c)) l) = Some ed) <-> fine_all env rs normalize segment works (fst (dispatch e c)) l).
    { intros Hw. destruct (event_goes_on c e Hh Hw Hk) as (c'&E&H'). rewrite E in *. exact (IH _ H' Hl). }
    split.
    + intros Ha. assert (Hw : fine_event works c e); [|split; [exact Hw|now apply Next]].
      destruct (co_editor (fst (dispatch e c))) as [ed1|] eqn:E1.
      * apply event_went; [exact Hh|now apply fine_known| |].
        -- left. rewrite E1. discriminate.
        -- destruct e; try exact I; left; destruct Hk as [Hk|Hk]; exact Hk || discriminate Hk.
      * destruct Ha as (ed&Ha). destruct (stuck_events env rs normalize segment l E1) as [E2 _]. rewrite E2 in Ha. discriminate Ha.
    + intros [Hw Hf]. now apply Next.
Qed.
End Survive.

(** * C61: exactly when a handler throws *)
(** After events that are fine, for every next event whose operations leave the caret in the document and whose content is tidy. *)
Theorem C61_exact : forall cfg xs xc normalize segment connected c l e, let env := page cfg xs xc in
  component_new env default_renderers connected = Ok c -> fine_all env default_renderers normalize segment (safe_op env tidy) c l ->
  let c1 := run_events env default_renderers normalize segment c l in
  known_event env default_renderers normalize segment c1 e ->
  (snd (dispatch env default_renderers normalize segment e c1) = Ok tt <-> fine_event env default_renderers normalize segment (works env) c1 e).
Proof.
  intros cfg xs xc normalize segment connected c l e env Hc Hf c1 Hk.
  assert (Hh : healthy cfg xs xc tidy c1) by exact (@run_total cfg xs xc normalize segment tidy (safe_op env tidy) tidy_rules tidy_nonempty (fun ed op _ H => H)
    (fun ed op ed' out _ _ _ S => tidy_row_drawn xs xc (so_doc S)) l c (@new_healthy cfg xs xc tidy tidy_rules connected c Hc) Hf).
  split.
  - intros H. apply event_went; [exact Hh|exact Hk|right; eauto|]. destruct e; try exact I; right; exact H.
  - intros Hw. destruct (event_goes_on cfg xs xc normalize segment c1 e Hh Hw) as (c'&E&_); [|unfold env; now rewrite E].
    destruct e as [k|t| |[]|[]|[[json text]|]|[] p|[] p|d p|[] p|m| |m]; cbn [fine_event known_event] in *; try (right; exact Hk); auto.
    + right. split; [exact (proj1 Hw)|exact Hk].
    + right. destruct Hw as (math&root&errors&->&Ef&_). exists math, root, errors. split; [reflexivity|split; [exact Ef|]]. intros ed E. exact (Hk _ _ _ _ eq_refl Ef E).
    + right. destruct Hw as (math&root&errors&->&Ef&_). exists math, root, errors. split; [reflexivity|split; [exact Ef|]]. intros ed E. exact (Hk _ _ _ _ eq_refl Ef E).
Qed.
Print Assumptions C61_exact.

(** * C62: exactly when the editor is lost *)
Theorem C62_exact : forall cfg xs xc normalize segment connected c l, let env := page cfg xs xc in
  component_new env default_renderers connected = Ok c -> known_all env default_renderers normalize segment c l ->
  ((exists ed, co_editor (run_events env default_renderers normalize segment c l) = Some ed) <-> fine_all env default_renderers normalize segment (works env) c l).
Proof.
  intros cfg xs xc normalize segment connected c l env Hc Hk. exact (survives cfg xs xc normalize segment l c (@new_healthy cfg xs xc tidy tidy_rules connected c Hc) Hk).
Qed.
Print Assumptions C62_exact.
Lemma safe_known env renderers normalize segment l2 l : forall c, fine_all env renderers normalize segment (safe_op env tidy) c l ->
  known_all env renderers normalize segment (run_events env renderers normalize segment c l) l2 -> known_all env renderers normalize segment c (l ++ l2).
Proof.
  assert (G : forall ed op, safe_op env tidy ed op -> known env ed op) by (intros ed op (H1&H2&_); exact (conj H1 H2)).
  assert (T : forall l c, fine_tasks env renderers segment (safe_op env tidy) c l -> fine_tasks env renderers segment (known env) c l).
  { clear -G. induction l as [|t l IH]; intros c H; [exact I|]. destruct H as [H Hl]. split; [intros ed op E Eo; exact (G _ _ (H _ _ E Eo))|now apply IH]. }
  induction l as [|e l IH]; intros c Hf Hk; [exact Hk|]. destruct Hf as [Hf Hl]. cbn [app known_all run_events] in *. split; [right|now apply IH].
  destruct e as [k|t| |[]|[]|[[json text]|]|[] p|[] p|d p|[] p|m| |m]; cbn [fine_event] in *; try exact Hf.
  - intros ed op E Eo. exact (G _ _ (Hf _ _ E Eo)).
  - now apply T.
  - intros ed E. exact (G _ _ (Hf _ E)).
  - split; [exact (proj1 Hf)|]. intros ed op E Eo. exact (G _ _ (proj2 Hf _ _ E Eo)).
  - intros ed E. split; [exact (proj1 (Hf _ E))|]. intros q Hq. exact (G _ _ (proj2 (Hf _ E) q Hq)).
  - destruct Hf as (math&root&errors&H1&H2&H3). exists math, root, errors. split; [exact H1|split; [exact H2|]]. intros ed E. exact (G _ _ (H3 _ E)).
  - destruct Hf as (math&root&errors&H1&H2&H3). exists math, root, errors. split; [exact H1|split; [exact H2|]]. intros ed E. exact (G _ _ (H3 _ E)).
Qed.
(** The session of [C61_case], then Left to the start and Backspace: the editor is lost, because overflow is checked. Instead pasting of
    something that cannot be read throws. *)
Example C62_exact_case : let env := ascii_page debug_profile in let l := more ++ [EvKey KeyLeft; EvBeforeInput DeleteBackward] in exists c, component_new env default_renderers true = Ok c /\
  fine_all env default_renderers as_is by_character (safe_op env tidy) c l /\
  known_event env default_renderers as_is by_character (run_events env default_renderers as_is by_character c l) (EvPaste (Some (lit "x", []))) /\
  known_all env default_renderers as_is by_character c (l ++ [EvTimer]) /\ ~ fine_all env default_renderers as_is by_character (works env) c (l ++ [EvTimer]).
Proof.
  intros env l. assert (H : match component_new env default_renderers true with Ok c => all_b env as_is by_character c l | Panic _ => false end = true) by (vm_compute; reflexivity).
  assert (D : match component_new env default_renderers true with Ok c => match co_editor (run_events env default_renderers as_is by_character c (l ++ [EvTimer])) with None => true | _ => false end | Panic _ => false end = true) by (vm_compute; reflexivity).
  assert (T : match component_new env default_renderers true with Ok c => co_tasks (run_events env default_renderers as_is by_character c l) | Panic _ => [] end = [DeleteBackward]) by (vm_compute; reflexivity).
  destruct (component_new env default_renderers true) as [c|k] eqn:E; [|discriminate H]. exists c. split; [reflexivity|]. apply all_b_ok in H. split; [exact H|]. split; [|].
  - intros ed op _ Eo. injection Eo as <-. split; [|exact I]. intros nodes Hn. vm_compute in Hn. discriminate Hn.
  - assert (K : known_all env default_renderers as_is by_character c (l ++ [EvTimer])).
    { apply safe_known; [exact H|]. cbn [known_all]. split; [right|exact I]. cbn [fine_event]. rewrite T. split; [|exact I]. intros ed op _ Eo. injection Eo as <-. split; exact I. }
    split; [exact K|]. intros F. apply (C62_exact debug_profile ascii_letter ascii_continue as_is by_character true c _ E K) in F as (ed&F). fold env in F. 
    change (page debug_profile ascii_letter ascii_continue) with env in F. rewrite F in D. discriminate D.
Qed.
