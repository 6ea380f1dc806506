(** The order of the modules does not matter to the completions if no symbol is empty. *)
From Coq Require Import String Permutation.
From Verif Require Import Base Str Grid Node Focus Edit Caret Autocomplete Editor Rules Spec SpecAuto SpecSafety NameMap Syntax Pratt Grammar Modules Render
  SpecModules SpecEditor BaseFacts TreeFacts EditorFacts AutoFacts PopupFacts SafetyFacts SafetyProofs ModulesFacts.
Open Scope list_scope.
Open Scope nat_scope.
Set Implicit Arguments.
Unset Strict Implicit.

(** A beginning of [b] with at least two characters is at the end of a beginning of [a]. *)
Definition clash (a b : str) : bool :=
  existsb (fun i => existsb (fun j => (2 <=? j) && (j <=? i) && str_eqb (skipn (i - j) (firstn i a)) (firstn j b)) (seq 0 (S (List.length b)))) (seq 0 (S (List.length a))).
Lemma clash_ok (p y r r' : str) : 2 <= List.length y -> clash ((p ++ y) ++ r) (y ++ r') = true.
Proof.
  intros H. unfold clash. apply existsb_exists. exists (List.length (p ++ y)). split; [apply in_seq; rewrite !app_length; lia|].
  apply existsb_exists. exists (List.length y). split; [apply in_seq; rewrite !app_length; lia|].
  rewrite firstn_app, firstn_all, Nat.sub_diag, firstn_app, firstn_all, Nat.sub_diag. cbn [firstn]. rewrite !app_nil_r, app_length, Nat.add_sub, skipn_app, skipn_all, Nat.sub_diag.
  cbn [skipn app]. apply andb_true_iff. split; [apply andb_true_iff; split; apply Nat.leb_le; lia|]. now apply str_eqb_eq.
Qed.
Definition all_modules : list Module := [BuiltIn; Core; Arithmetic; Calculus; Collections; Comparison; Function; Logic; Strings].
Definition module_eqb (a b : Module) : bool :=
  match a, b with
  | BuiltIn, BuiltIn | Core, Core | Arithmetic, Arithmetic | Calculus, Calculus | Collections, Collections | Comparison, Comparison
  | Function, Function | Logic, Logic | Strings, Strings => true
  | _, _ => false
  end.
Lemma no_clash m m' r r' : In r (module_autocomplete m) -> In r' (module_autocomplete m') -> clash (rule_parser r) (rule_parser r') = true -> m = m'.
Proof.
  intros Hr Hr' C.
  assert (A : forallb (fun m => forallb (fun m' => module_eqb m m' || forallb (fun r => forallb (fun r' => negb (clash (rule_parser r) (rule_parser r'))) (module_autocomplete m')) (module_autocomplete m)) all_modules) all_modules = true)
    by (vm_compute; reflexivity).
  assert (I : forall m, In m all_modules) by (intros []; cbn; tauto).
  rewrite forallb_forall in A. specialize (A m (I m)). rewrite forallb_forall in A. specialize (A m' (I m')). apply orb_prop in A as [A|A].
  - clear - A. destruct m, m'; (reflexivity || discriminate A).
  - rewrite forallb_forall in A. specialize (A r Hr). rewrite forallb_forall in A. specialize (A r' Hr'). rewrite C in A. discriminate A.
Qed.
Lemma module_ascii m r : In r (module_autocomplete m) -> ascii_rule r.
Proof.
  intros H. pose proof default_rules_ascii as D. rewrite Forall_forall in D. apply D. change default_rules with (rev (flat_map module_autocomplete all_modules)).
  apply in_rev. rewrite rev_involutive. apply in_flat_map. exists m. split; [|exact H]. destruct m; cbn; tauto.
Qed.

Section Row.
Variables (row : InputRow) (caret : nat).
Hypothesis Hcaret : caret <= List.length row.
Hypothesis Hsym : forall s, In (Symbol s) row -> s <> [].

Lemma syms_length before syms : firstn caret row = before ++ map Symbol syms -> List.length syms <= List.length (concat syms).
Proof.
  intros H. assert (A : forall s, In s syms -> s <> []).
  { intros s Hs. apply Hsym. rewrite <- (firstn_skipn caret row), H, !in_app_iff. left. right. now apply in_map. }
  clear H. induction syms as [|s syms IH]; cbn [concat List.length]; [lia|]. rewrite app_length. specialize (IH (fun x h => A x (or_intror h))).
  specialize (A s (or_introl eq_refl)). destruct s; [congruence|]. cbn [List.length]. lia.
Qed.
Lemma suffixes (b b' : InputRow) x y : List.length y <= List.length x -> b ++ map Symbol x = b' ++ map Symbol y -> exists z, x = z ++ y.
Proof.
  revert b b' x. induction y as [|s y IH] using rev_ind; intros b b' x L E; [exists x; now rewrite app_nil_r|].
  destruct x as [|t x _] using rev_ind; [rewrite app_length in L; cbn in L; lia|]. rewrite !map_app, !app_assoc in E. cbn [map] in E. apply app_inj_tail in E as [E1 E2]. injection E2 as ->.
  rewrite !app_length in L. cbn [List.length] in L. destruct (IH b b' x) as (z&->); [lia|exact E1|]. exists z. now rewrite app_assoc.
Qed.
Lemma same_module m m' r r' ms ms' x x' : In r (module_autocomplete m) -> In r' (module_autocomplete m') ->
  rule_matches r row caret 2 = Ok ms -> rule_matches r' row caret 2 = Ok ms' -> In x ms -> In x' ms' -> m = m'.
Proof.
  intros Hr Hr' E E' Hx Hx'. destruct (match_sound E Hx) as (s&rest&(b&B)&_&P&_&_&L&_). destruct (match_sound E' Hx') as (s'&rest'&(b'&B')&_&P'&_&_&L'&_).
  pose proof (syms_length B) as N. pose proof (syms_length B') as N'. rewrite B in B'. destruct (Nat.le_ge_cases (List.length s') (List.length s)) as [H|H].
  - destruct (suffixes H B') as (z&->). apply (no_clash Hr Hr'). rewrite P, P', concat_app. apply clash_ok. lia.
  - symmetry in B'. destruct (suffixes H B') as (z&->). symmetry. apply (no_clash Hr' Hr). rewrite P, P', concat_app. apply clash_ok. lia.
Qed.
Lemma rules_app l l' : rules_matches (l ++ l') row caret 2 = (a <- rules_matches l row caret 2 ;; b <- rules_matches l' row caret 2 ;; Ok (a ++ b)).
Proof.
  induction l as [|r l IH]; cbn [rules_matches app bind]; [now destruct (rules_matches l' row caret 2)|]. destruct (rule_matches r row caret 2) as [x|p]; cbn [bind]; [|reflexivity].
  rewrite IH. destruct (rules_matches l row caret 2) as [y|p]; cbn [bind]; [|reflexivity]. destruct (rules_matches l' row caret 2); cbn [bind]; [|reflexivity]. now rewrite app_assoc.
Qed.
Definition found (m : Module) : Res (list RuleMatch) := rules_matches (rev (module_autocomplete m)) row caret 2.
Lemma found_total m : exists l, found m = Ok l.
Proof.
  apply ascii_rules_total; [|exact Hcaret|].
  - apply Forall_forall. intros r Hr. apply in_rev in Hr. exact (module_ascii Hr).
  - intros b Hb. apply (@Hsym []); [|reflexivity]. rewrite <- (firstn_skipn caret row), Hb, !in_app_iff. left. right. now left.
Qed.
Lemma found_one m m' l l' : found m = Ok l -> found m' = Ok l' -> m = m' \/ l = [] \/ l' = [].
Proof.
  intros E E'. destruct l as [|x l]; [auto|]. destruct l' as [|x' l']; [auto|]. left. 
  destruct (proj1 (rules_matches_inv E x) (or_introl eq_refl)) as (r&s&Hr&Es&Hx). destruct (proj1 (rules_matches_inv E' x') (or_introl eq_refl)) as (r'&s'&Hr'&Es'&Hx').
  apply in_rev in Hr, Hr'. exact (same_module Hr Hr' Es Es' Hx Hx').
Qed.
Lemma order_matches ms ms' : Permutation ms ms' -> rules_matches (flat_map (fun m => rev (module_autocomplete m)) ms) row caret 2 = rules_matches (flat_map (fun m => rev (module_autocomplete m)) ms') row caret 2.
Proof.
  intros P. induction P as [|m l l' P IH|a b l|l l' l'' P1 IH1 P2 IH2]; cbn [flat_map]; [reflexivity| | |congruence].
  - rewrite !rules_app. now rewrite IH.
  - rewrite !rules_app. fold (found a) (found b). destruct (found_total a) as (x&Ex), (found_total b) as (y&Ey). rewrite Ex, Ey. cbn [bind].
    destruct (rules_matches (flat_map (fun m => rev (module_autocomplete m)) l) row caret 2) as [z|p]; cbn [bind]; [|reflexivity].
    destruct (found_one Ex Ey) as [->|[->| ->]]; [congruence|reflexivity|reflexivity].
Qed.
End Row.
Lemma rev_flat_map {A B} (f : A -> list B) l : rev (flat_map f l) = flat_map (fun x => rev (f x)) (rev l).
Proof. induction l as [|x l IH]; [reflexivity|]. cbn [flat_map rev]. rewrite rev_app_distr, IH, flat_map_app. cbn [flat_map]. now rewrite app_nil_r. Qed.
Lemma collection_order ms ms' row caret : Permutation ms ms' -> caret <= List.length row -> (forall s, In (Symbol s) row -> s <> []) ->
  rules_matches (collection_autocomplete ms) row caret 2 = rules_matches (collection_autocomplete ms') row caret 2.
Proof. intros P H S. unfold collection_autocomplete. rewrite !rev_flat_map. apply (order_matches H S). now rewrite <- !Permutation_rev. Qed.

(** ** Sessions *)
Section Session.
Variables (e1 e2 : Env SyntaxNode) (ms ms' : list Module).
Hypothesis P : Permutation ms ms'.
Hypothesis R1 : env_rules e1 = collection_autocomplete ms.
Hypothesis R2 : env_rules e2 = collection_autocomplete ms'.
Lemma popup_order ed : proper nonempty (ed_input ed) -> get_autocomplete e1 ed = get_autocomplete e2 ed.
Proof.
  intros Hp. unfold get_autocomplete. destruct (caret_from_minimal (ed_input ed) (ed_caret ed)) as [c|p] eqn:Hc; cbn [bind]; [|reflexivity].
  destruct (c_selection c) as [r|g] eqn:Es; [|reflexivity]. destruct (rg_is_collapsed r); [|reflexivity]. cbv zeta.
  pose proof (good_start (caret_row_good Hc Es)) as [Gc Go]. rewrite R1, R2. rewrite (@collection_order ms ms'); [reflexivity|exact P|exact Go|].
  intros s Hs. apply (proj2 Hp (PartSymbol s)). eapply row_get_parts; [exact (canonical_row Gc)|]. apply in_row_parts. exists (Symbol s). split; [exact Hs|now left].
Qed.
End Session.
Lemma step_order cfg ms ms' (f f' : InputRow -> Res SyntaxNode) ser des ed op : Permutation ms ms' -> (forall doc, f doc = f' doc) -> proper nonempty (ed_input ed) ->
  step (mkEnv cfg (collection_autocomplete ms) f ser des) ed op = step (mkEnv cfg (collection_autocomplete ms') f' ser des) ed op.
Proof.
  intros P F Hp. pose proof (@popup_order (mkEnv cfg (collection_autocomplete ms) f ser des) (mkEnv cfg (collection_autocomplete ms') f' ser des) ms ms' P eq_refl eq_refl) as G'. pose proof (G' ed Hp) as G.
  destruct op; cbn [step]; unfold move_caret, select_with_caret, editor_remove_at_caret, insert_at_caret, start_selection, extend_selection, paste, open_autocomplete, finish_autocomplete, move_in_autocomplete, start_autocorrect, get_syntax_tree;
    cbn [env_parse]; cbv zeta; try rewrite G; try rewrite F; try (rewrite G' by exact Hp); reflexivity.
Qed.
Lemma run_order cfg ms ms' (f f' : InputRow -> Res SyntaxNode) ser des ed ops : Permutation ms ms' -> (forall doc, f doc = f' doc) ->
  (forall a b ed1, ops = a ++ b -> run (mkEnv cfg (collection_autocomplete ms) f ser des) ed a = Ok ed1 -> proper nonempty (ed_input ed1)) ->
  run (mkEnv cfg (collection_autocomplete ms) f ser des) ed ops = run (mkEnv cfg (collection_autocomplete ms') f' ser des) ed ops.
Proof.
  intros P F. revert ed. induction ops as [|op ops IH]; intros ed H; [reflexivity|]. cbn [run].
  rewrite <- (@step_order cfg ms ms' f f' ser des ed op P F (H [] _ _ eq_refl eq_refl)). destruct (step (mkEnv cfg (collection_autocomplete ms) f ser des) ed op) as [[ed' out]|p] eqn:E; cbn [bind]; [|reflexivity].
  apply IH. intros a b ed1 -> Ha. apply (H (op :: a) b ed1); [reflexivity|]. cbn [run]. rewrite E. exact Ha.
Qed.
