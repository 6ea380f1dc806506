(** Properties of the modules that a parser is made of (C87 to C89). *)
From Coq Require Import String Permutation.
From Verif Require Import Base Str Grid Node Focus Edit Caret Autocomplete Editor Rules Spec NameMap Syntax Pratt Grammar SyntaxFind Modules Render Json
  SpecSafety SpecSyntax SpecEditor SpecRender SpecDom SpecModules BaseFacts ParseFacts ParseTotal GrammarFacts ShapeFacts RenderFacts ModulesFacts LibraryFacts ModulePopup Samples
  PropsAuto PropsEditor PropsParse PropsRender ComponentCheck PropsPage.
Open Scope list_scope.
Open Scope nat_scope.

(** * C87: every parser works *)
(** The parser of the editor is made of all modules; it is the one of the other theorems. *)
Theorem C87_default : snd library_loaded = Ok math_modules /\ (forall xs xc, collection_grammar xs xc math_modules = default_grammar xs xc) /\
  collection_autocomplete math_modules = default_rules /\ make_renderers (lib_known (fst library_loaded)) = Ok default_renderers.
Proof. split; [vm_compute; reflexivity|]. split; [reflexivity|]. split; [reflexivity|exact loaded_renderers]. Qed.
Print Assumptions C87_default.
(** Whatever was made before, and of whatever modules in whatever order a parser is made: it parses every document
    without losing any of it, there is a renderer for every name in the tree, and the document is drawn if the
    one of the editor draws all such documents (C50). *)
Theorem C87_any : forall ops ks ms, snd (make_math_parser_with (lib_after ops) ks) = Ok ms ->
  exists rs, make_renderers (lib_known (lib_after ops)) = Ok rs /\
  forall xs xc doc, wf_row doc -> exists n, parse (collection_grammar xs xc ms) doc = Ok n /\
    covers doc 0 (length doc) n /\ leaf_text n = concat (Spec.symbols doc) /\
    (forall m, node_of m n -> exists r, get_renderer rs (syn_name m) = Some r) /\
    (everywhere two_cells doc -> everywhere no_space_after_scripts doc -> everywhere no_space_before_scripts doc -> exists x, render_all rs n = Ok x).
Proof.
  intros ops ks ms H. exists default_renderers. split.
  { rewrite known_after. exact loaded_renderers. }
  assert (B : In BuiltIn ms) by (apply made_iff in H as (_&new&->&_); now left).
  intros xs xc doc Hwf. destruct (parse_covers (@any_no_empty xs xc ms) (@any_containers xs xc ms B) Hwf) as (n&En&C). exists n. split; [exact En|]. split; [exact C|].
  split; [exact (parse_text (@any_no_empty xs xc ms) (@any_containers xs xc ms B) Hwf En)|]. split; [exact (@any_named xs xc ms doc n En)|]. exact (@any_rendered xs xc ms doc n Hwf En).
Qed.
Print Assumptions C87_any.
(** A parser made of a second object for numbers and the like, and the built-in module a second time *)
Example C87_case : snd (make_math_parser_with (lib_after [MakeModule Arithmetic; MakeParser [0]; MakeModule BuiltIn]) [9; 10]) = Ok [BuiltIn; Arithmetic; BuiltIn] /\
  wf_row sample /\ ok_b (parse (collection_grammar ascii_letter ascii_continue [BuiltIn; Arithmetic; BuiltIn]) sample) = true.
Proof. split; [vm_compute; reflexivity|]. split; [exact sample_wf|]. vm_compute. reflexivity. Qed.

(** * C88: order of the modules *)
(** Only which of the modules that occur in the document there are matters to the tree: not their order, not
    how often they were added, and not the modules of which nothing occurs. *)
Theorem C88_used : forall xs xc ms ms' doc, plain_letters xs ->
  (forall m, (In m ms <-> In m ms') \/ everywhere (absent xs xc m) doc) -> parse (collection_grammar xs xc ms) doc = parse (collection_grammar xs xc ms') doc.
Proof. intros xs xc ms ms' doc L H. exact (parse_used L H). Qed.
Print Assumptions C88_used.
Theorem C88_order : forall xs xc ms ms' doc, plain_letters xs -> (forall m, In m ms <-> In m ms') -> parse (collection_grammar xs xc ms) doc = parse (collection_grammar xs xc ms') doc.
Proof. intros xs xc ms ms' doc L H. apply (parse_used L). auto. Qed.
Print Assumptions C88_order.
(** If the infinity sign could start an identifier, the order would matter. *)
Theorem C88_letters_needed : exists xs xc ms ms' doc, (forall m, In m ms <-> In m ms') /\ parse (collection_grammar xs xc ms) doc <> parse (collection_grammar xs xc ms') doc.
Proof.
  exists (fun c => (c =? 8734)%N), (fun _ => false), [BuiltIn; Core; Calculus], [BuiltIn; Calculus; Core], [Symbol [8734%N]]. split; [intros m; cbn; tauto|]. vm_compute. discriminate.
Qed.
(** The same completions are found, but in another order. *)
Theorem C88_completions : forall ms ms' input caret min_len found, Permutation ms ms' -> rules_matches (collection_autocomplete ms) input caret min_len = Ok found ->
  exists found', rules_matches (collection_autocomplete ms') input caret min_len = Ok found' /\ Permutation found found'.
Proof.
  intros ms ms' input caret min_len found P H. assert (Q : Permutation (collection_autocomplete ms) (collection_autocomplete ms')).
  { unfold collection_autocomplete. rewrite <- !Permutation_rev. now apply Permutation_flat_map. }
  revert found H. induction Q as [|r l l' Q IH|a b l|l l' l'' Q1 IH1 Q2 IH2]; intros found H.
  - exists found. split; [exact H|apply Permutation_refl].
  - cbn in *. apply bind_ok in H as (x&Ex&H). apply bind_ok in H as (y&Ey&H). injection H as <-. destruct (IH y Ey) as (y'&Ey'&P'). exists (x ++ y'). rewrite Ex, Ey'. split; [reflexivity|].
    now apply Permutation_app_head.
  - cbn in *. apply bind_ok in H as (x&Ex&H). apply bind_ok in H as (y&Ey&H). injection H as <-. apply bind_ok in Ey as (z&Ez&Ey). apply bind_ok in Ey as (w&Ew&Ey). injection Ey as <-.
    exists (z ++ x ++ w). rewrite Ez, Ex. cbn [bind]. rewrite Ew. split; [reflexivity|]. rewrite !app_assoc. apply Permutation_app_tail, Permutation_app_comm.
  - destruct (IH1 found H) as (f1&E1&P1). destruct (IH2 f1 E1) as (f2&E2&P2). exists f2. split; [exact E2|]. exact (Permutation_trans P1 P2).
Qed.
Print Assumptions C88_completions.
(** If no symbol is empty, they are found in the same order: whole sessions do not depend on the order of the modules. *)
Definition module_env (cfg : Cfg) (xs xc : N -> bool) (ms : list Module) : Env SyntaxNode :=
  mkEnv cfg (collection_autocomplete ms) (parse (collection_grammar xs xc ms)) serialize_input_nodes (deserialize_input_nodes 4294967295).
Theorem C88_popup : forall ms ms' row caret, Permutation ms ms' -> caret <= List.length row -> (forall s, In (Symbol s) row -> s <> []) ->
  rules_matches (collection_autocomplete ms) row caret 2 = rules_matches (collection_autocomplete ms') row caret 2.
Proof. intros ms ms' row caret. exact (@collection_order ms ms' row caret). Qed.
Print Assumptions C88_popup.
Theorem C88_session_partial : forall cfg xs xc ms ms' ops, plain_letters xs -> Permutation ms ms' ->
  (forall a b ed, ops = a ++ b -> run (module_env cfg xs xc ms) (editor_new _) a = Ok ed -> proper nonempty (ed_input ed)) ->
  run (module_env cfg xs xc ms) (editor_new _) ops = run (module_env cfg xs xc ms') (editor_new _) ops.
Proof.
  intros cfg xs xc ms ms' ops L P H. apply run_order; [exact P| |exact H]. intros doc. apply (parse_used L). intros m. left. split; apply Permutation_in; [exact P|exact (Permutation_sym P)].
Qed.
Print Assumptions C88_session_partial.
Definition typed_sum : list Op := [OpInsertAtCaret [lit "s"]; OpInsertAtCaret [lit "u"]; OpMoveInAutocomplete VDown; OpFinishAutocomplete true; OpGetSyntaxTree].
Definition nonempty_b (r : Res (MathEditor SyntaxNode)) : bool := match r with Ok ed => tidy_row_b (ed_input ed) | Panic _ => false end.
Example C88_session_case : forall cfg, (forall a b ed, typed_sum = a ++ b -> run (module_env cfg ascii_letter ascii_continue math_modules) (editor_new _) a = Ok ed -> proper nonempty (ed_input ed)) /\
  Permutation math_modules (rev math_modules) /\ exists ed, run (module_env cfg ascii_letter ascii_continue (rev math_modules)) (editor_new _) typed_sum = Ok ed /\ ed_input ed = [Symbol [8721%N]].
Proof.
  intros cfg. split; [|split; [apply Permutation_rev|both_profiles; (eexists; split; [vm_compute; reflexivity|reflexivity])]].
  intros a b ed E R. apply tidy_row_nonempty. change (nonempty_b (Ok ed) = true). rewrite <- R. clear R ed. assert (A : a = firstn (List.length a) typed_sum) by (rewrite E, firstn_app, firstn_all, Nat.sub_diag; cbn; now rewrite app_nil_r).
  assert (L : List.length a <= 5) by (change 5 with (List.length typed_sum); rewrite E, app_length; lia). rewrite A. generalize dependent (List.length a). clear. intros n _ L.
  do 6 (destruct n as [|n]; [both_profiles; vm_compute; reflexivity|]). lia.
Qed.
(** With an empty symbol the order matters: after it and an "s", accepting the selected completion gives a sum or a root. *)
Definition empty_s : list Op := [OpInsertAtCaret [[]; lit "s"]; OpFinishAutocomplete true].
Theorem C88_refuted : forall cfg, exists ms ms' ed ed', Permutation ms ms' /\
  run (module_env cfg ascii_letter ascii_continue ms) (editor_new _) empty_s = Ok ed /\ run (module_env cfg ascii_letter ascii_continue ms') (editor_new _) empty_s = Ok ed' /\ ed_input ed <> ed_input ed'.
Proof.
  intros cfg. exists [BuiltIn; Arithmetic; Calculus], [BuiltIn; Calculus; Arithmetic]. both_profiles; (eexists; eexists; split; [apply perm_skip, perm_swap|]; split; [vm_compute; reflexivity|]; split; [vm_compute; reflexivity|]; discriminate).
Qed.
Print Assumptions C88_refuted.
(** The sample has no operators, comparisons, functions, logic or strings; it has letters and digits. *)
Fixpoint absent_b (xs xc : N -> bool) (m : Module) (row : InputRow) : bool :=
  forallb (fun r => match rule_token r with Some t => negb (begins xs xc t row) | None => true end) (module_rules m) &&
  match row with _ :: row => absent_b xs xc m row | [] => true end.
Lemma absent_b_ok xs xc m row : absent_b xs xc m row = true -> absent xs xc m row.
Proof.
  intros H r t a b Hr Ht ->. revert H. induction a as [|n a IH]; intros H.
  - destruct b as [|n b]; cbn [absent_b app] in H; apply andb_prop in H as [H _]; rewrite forallb_forall in H; specialize (H r Hr); rewrite Ht in H; now apply negb_true_iff in H.
  - cbn [absent_b app] in H. apply andb_prop in H as [_ H]. exact (IH H).
Qed.
Lemma ascii_plain : plain_letters ascii_letter.
Proof.
  split; [|repeat split; vm_compute; reflexivity]. intros c A B. unfold ascii_letter. apply N.leb_le in A, B.
  destruct (N.leb_spec 65 c) as [C|C]; [lia|]. destruct (N.leb_spec 97 c) as [D|D]; [lia|]. reflexivity.
Qed.
Example C88_case : plain_letters ascii_letter /\ (forall m, In m [Collections; Comparison; Function; Logic; Strings] -> everywhere (absent ascii_letter ascii_continue m) sample) /\
  ~ everywhere (absent ascii_letter ascii_continue Core) sample /\
  (forall m, (In m math_modules <-> In m [BuiltIn; Calculus; Core; Arithmetic]) \/ everywhere (absent ascii_letter ascii_continue m) sample).
Proof.
  split; [exact ascii_plain|]. assert (A : forall m, In m [Collections; Comparison; Function; Logic; Strings] -> everywhere (absent ascii_letter ascii_continue m) sample).
  { intros m Hm. apply (@rows_b_ok (absent_b ascii_letter ascii_continue m) _ (absent_b_ok _ _ m) 5). repeat (destruct Hm as [<-|Hm]; [vm_compute; reflexivity|]). destruct Hm. }
  split; [exact A|]. split.
  { intros H. specialize (H [] sample eq_refl (RAtom [lit "Core"; lit "Variable"] TVariable) TVariable [] sample (or_introl eq_refl) eq_refl eq_refl). discriminate H. }
  intros m. destruct m; try (right; apply A; cbn; tauto); left; cbn; tauto.
Qed.

(** * C89: several parsers *)
(** A parser can be made exactly if every module is given once and its object was not given away. *)
Theorem C89_exact : forall lib ks ms, snd (make_math_parser_with lib ks) = Ok ms <->
  NoDup ks /\ exists new, ms = BuiltIn :: new /\ Forall2 (fun k m => nth_error (lib_objects lib) k = Some (Some m)) ks new.
Proof. exact made_iff. Qed.
Print Assumptions C89_exact.
(** Making a parser gives the objects away. *)
Theorem C89_taken : forall lib ks ms k, snd (make_math_parser_with lib ks) = Ok ms -> In k ks -> nth_error (lib_objects (fst (make_math_parser_with lib ks))) k = Some None.
Proof. intros lib ks ms k H. exact (@made_used lib ks ms H k). Qed.
Print Assumptions C89_taken.
(** So no module in [MathModules] but the built-in one can ever be used for another parser. *)
Theorem C89_refuted : forall ops ks k, 1 <= k <= 8 -> In k ks -> forall ms, snd (make_math_parser_with (lib_after ops) ks) <> Ok ms.
Proof.
  intros ops ks k Hk Hi ms H. apply made_iff in H as (_&new&_&F). pose proof (@loaded_dead ops k Hk) as D. induction F as [|j m ks new Hj F IH]; [destruct Hi|].
  destruct Hi as [->|Hi]; [congruence|exact (IH Hi)].
Qed.
Print Assumptions C89_refuted.
Example C89_case : snd (make_math_parser_with (fst library_loaded) [1]) = Panic PUnwrap /\ snd (make_math_parser_with (fst library_loaded) [0]) = Ok [BuiltIn; BuiltIn] /\
  snd (make_math_parser_with library_loading [2; 1]) = Ok [BuiltIn; Arithmetic; Core] /\ snd (make_math_parser_with library_loading [2; 2]) = Panic PUnwrap /\
  snd (make_math_parser_with (lib_after [MakeModule Core]) [9]) = Ok [BuiltIn; Core].
Proof. vm_compute. auto. Qed.
