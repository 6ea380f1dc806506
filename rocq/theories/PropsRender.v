(** Drawing the document, the caret in the drawing, and clicking on it (C50 to C57). *)
From Coq Require Import String Permutation.
From Verif Require Import Base Str Grid Node Focus Edit Caret Autocomplete Editor Rules Spec NameMap Syntax Pratt Grammar SyntaxFind Render Layout
  SpecSyntax SpecPratt SpecEditor SpecSafety SpecRender SpecDom BaseFacts TreeFacts ParseFacts ParseTotal GrammarFacts FindFacts NameMapFacts
  ShapeFacts RenderFacts SpacesFacts LayoutFacts ClickFacts DomFacts GridFacts Samples PropsAuto PropsEditor PropsSafety.
Open Scope list_scope.
Open Scope nat_scope.

(** Parsing a document and drawing it, as the editor does after every change *)
Definition draw (xs xc : N -> bool) (doc : InputRow) : Res Element :=
  rs <- make_renderers (grammar_names (default_grammar xs xc)) ;; n <- parse (default_grammar xs xc) doc ;; render_all rs n.
Lemma draw_inv xs xc doc x : draw xs xc doc = Ok x -> exists n, parse (default_grammar xs xc) doc = Ok n /\ render_all default_renderers n = Ok x.
Proof. unfold draw. rewrite default_make. cbn [bind]. intros H. apply bind_ok in H as (n&En&H). eauto. Qed.
Lemma draw_ok xs xc doc n x : parse (default_grammar xs xc) doc = Ok n -> render_all default_renderers n = Ok x -> draw xs xc doc = Ok x.
Proof. unfold draw. rewrite default_make. cbn [bind]. intros -> H. exact H. Qed.
Definition ok_b {A} (r : Res A) : bool := match r with Ok _ => true | Panic _ => false end.

(** * C50: every document can be drawn *)
(** Missing: documents with a space next to a sub- or superscript. *)
Theorem C50_drawn_partial : forall xs xc doc, wf_row doc -> everywhere two_cells doc ->
  everywhere no_space_after_scripts doc -> everywhere no_space_before_scripts doc -> exists x, draw xs xc doc = Ok x.
Proof.
  intros xs xc doc Hwf H2 Ha Hb. destruct (default_covers xs xc Hwf) as (n&En&_). destruct (default_rendered Hwf En H2 Ha Hb) as (x&Hx). exists x. eapply draw_ok; eauto.
Qed.
Print Assumptions C50_drawn_partial.
(** The conditions are necessary, but for a space before a script. *)
Theorem C50_necessary : forall xs xc doc x, draw xs xc doc = Ok x -> everywhere two_cells doc /\ everywhere no_space_after_scripts doc.
Proof. intros xs xc doc x H. apply draw_inv in H as (n&En&Hx). eapply default_rendered_inv; eauto. Qed.
Print Assumptions C50_necessary.
(** Spaces before a script are drawn if they come after a container, or after a symbol that is a
    token on its own. *)
Theorem C50_spaces_partial : forall xs xc doc, wf_row doc -> everywhere two_cells doc -> everywhere no_space_after_scripts doc ->
  everywhere (spaces_follow (stands_alone xs xc)) doc -> exists x, draw xs xc doc = Ok x.
Proof.
  intros xs xc doc Hwf H2 Ha Hb. destruct (default_covers xs xc Hwf) as (n&En&_). destruct (default_rendered_spaces Hwf En H2 Ha Hb) as (x&Hx). exists x. eapply draw_ok; eauto.
Qed.
Print Assumptions C50_spaces_partial.
(** They are not drawn if they start a row or come after a symbol that cannot end a token, such as
    an opening bracket or a question mark. *)
Theorem C50_spaces_necessary : forall xs xc doc x, xs 32%N = false -> xc 32%N = false -> draw xs xc doc = Ok x -> everywhere (spaces_follow (may_end xs xc)) doc.
Proof. intros xs xc doc x X1 X2 H. apply draw_inv in H as (n&En&Hx). eapply default_rendered_spaces_inv; eauto. Qed.
Print Assumptions C50_spaces_necessary.
(** Together: exactly which documents are drawn, but for those where spaces before a script come
    after a symbol that may or may not end a token, such as a closing bracket or quote. *)
Theorem C50_exact : forall xs xc doc, xs 32%N = false -> xc 32%N = false -> wf_row doc -> everywhere (clear_before_scripts xs xc) doc ->
  ((exists x, draw xs xc doc = Ok x) <->
   everywhere two_cells doc /\ everywhere no_space_after_scripts doc /\ everywhere (spaces_follow (stands_alone xs xc)) doc).
Proof.
  intros xs xc doc X1 X2 Hwf Hc. split.
  - intros (x&H). destruct (C50_necessary _ _ _ _ H) as [H1 H2]. split; [exact H1|]. split; [exact H2|]. intros p row E j k Hs Hj.
    destruct (C50_spaces_necessary _ _ _ _ X1 X2 H p row E j k Hs Hj) as (i&->&[K|(y&Ey&K)]); exists i; (split; [reflexivity|]); [now left|]. right. exists y. split; [exact Ey|].
    exact (Hc p row E i k y Hs Hj Ey K).
  - intros (H1&H2&H3). now apply C50_spaces_partial.
Qed.
Print Assumptions C50_exact.
(** Typing a space after x^2, and one before a superscript at the start of a row: the assertion
    in renderer.ts:96 fails. A space between a variable and a superscript is drawn. *)
Theorem C50_refuted :
  draw ascii_letter ascii_continue [sym "x"; sup [sym "2"]; sym " "] = throw /\
  draw ascii_letter ascii_continue [sym " "; sup [sym "2"]] = throw /\
  (exists x, draw ascii_letter ascii_continue [sym "x"; sym " "; sup [sym "2"]] = Ok x) /\
  exists ed, run (default_env debug_profile) (editor_new _) [OpSpliceAtRange (mkMinRange [] 0 0) [sym "x"; sup [sym "2"]]; OpStartSelection (here 2) MChar; OpInsertAtCaret [lit " "]] = Ok ed /\
    ed_input ed = [sym "x"; sup [sym "2"]; sym " "].
Proof. split; [vm_compute; reflexivity|]. split; [vm_compute; reflexivity|]. split; eexists; [vm_compute; reflexivity|]. split; vm_compute; reflexivity. Qed.
Print Assumptions C50_refuted.
(** A witness of the hypotheses: the sample document. *)
Fixpoint rows_b (f : InputRow -> bool) (fuel : nat) (row : InputRow) : bool :=
  match fuel with
  | 0 => false
  | S fuel => f row && forallb (fun v => match v with Container _ c => forallb (rows_b f fuel) (gvalues c) | Symbol _ => true end) row
  end.
Lemma rows_b_ok f (P : InputRow -> Prop) : (forall row, f row = true -> P row) -> forall fuel row, rows_b f fuel row = true -> everywhere P row.
Proof.
  intros Hf. induction fuel as [|fuel IH]; intros row H; [discriminate|]. cbn in H. apply andb_prop in H as [H1 H2]. intros p. destruct p as [|[k j] p]; intros r E; cbn in E; [inv E; auto|].
  destruct (nth_error row k) as [[v c|x]|] eqn:Ek; try discriminate. destruct (nth_error (gvalues c) j) as [cell|] eqn:Ej; [|discriminate].
  rewrite forallb_forall in H2. specialize (H2 _ (nth_error_In _ _ Ek)). rewrite forallb_forall in H2. exact (IH cell (H2 _ (nth_error_In _ _ Ej)) p r E).
Qed.
Definition two_cells_b (row : InputRow) : bool := forallb (fun v => match v with Container (Fraction | RootV) c => List.length (gvalues c) =? 2 | _ => true end) row.
Lemma two_cells_b_ok row : two_cells_b row = true -> two_cells row.
Proof. unfold two_cells_b. rewrite forallb_forall. intros H k v c E Hv. specialize (H _ (nth_error_In _ _ E)). destruct Hv as [->| ->]; now apply Nat.eqb_eq. Qed.
Definition no_spaces_b (row : InputRow) : bool := forallb (fun v => match v with Symbol [32%N] => false | _ => true end) row.
Lemma no_spaces_b_ok row : no_spaces_b row = true -> no_space_after_scripts row /\ no_space_before_scripts row.
Proof. unfold no_spaces_b. rewrite forallb_forall. intros H. split; intros k _ E; specialize (H _ (nth_error_In _ _ E)); discriminate. Qed.
(** The hypotheses are met by a row where a script comes after spaces after a letter, an operator
    and a fraction, and by one where it comes after an opening bracket; the first is drawn. *)
Definition spaced_row (last : InputNode) : InputRow :=
  [sym "a"; sym " "; sup [sym "2"]; sym "+"; sym " "; sym " "; sub [sym "1"]; fraction [sym "1"] [sym "b"]; sym " "; sup [sym "n"]; last; sym " "; sup [sym "2"]].
Definition no_ambiguous_b (row : InputRow) : bool :=
  forallb (fun n => match n with Container _ _ => true | Symbol [c] => ascii_letter c || existsb (str_eqb [c]) operator_symbols || ((48 <=? c) && (c <=? 57))%N || (c =? 32)%N || (c =? 40)%N | _ => false end) row.
Lemma no_ambiguous_ok row : no_ambiguous_b row = true -> clear_before_scripts ascii_letter ascii_continue row.
Proof.
  intros H i k x _ (_&_&Hn) E M. unfold no_ambiguous_b in H. rewrite forallb_forall in H. specialize (H _ (nth_error_In _ _ E)). cbv beta iota in H. destruct x as [|c [|]]; try discriminate H.
  assert (c <> 32%N) as C by (intros ->; exact (Hn i eq_refl E)).
  destruct (N.eq_dec c 40) as [->|C'].
  - exfalso. destruct M as [M|[M|[M|[M|[M|[M|M]]]]]]; try discriminate M.
    + vm_compute in M. repeat (destruct M as [M|M]; [discriminate M|]). exact M.
    + specialize (M 40%N (or_introl eq_refl)). lia.
    + destruct M as (c&r&Ec&Hc&_). inv Ec. discriminate Hc.
    + specialize (M 40%N (or_introl eq_refl)). discriminate M.
    + cbn in M. repeat (destruct M as [M|M]; [discriminate M|]). exact M.
  - split; [congruence|]. apply orb_prop in H as [H|H]; [|apply N.eqb_eq in H; contradiction]. apply orb_prop in H as [H|H]; [|apply N.eqb_eq in H; contradiction].
    apply orb_prop in H as [H|H]; [|right; left; intros d [<-|[]]; apply andb_prop in H as [H1 H2]; apply N.leb_le in H1, H2; auto].
    apply orb_prop in H as [H|H]; [right; right; exists c, []; repeat split; [exact H|easy]|left]. apply existsb_exists in H as (y&Hy&Ey). apply str_eqb_eq in Ey. now subst y.
Qed.
Example C50_exact_case :
  (ascii_letter 32 = false /\ ascii_continue 32 = false)%N /\
  (forall last, In last [sym "x"; sym "("] -> wf_row (spaced_row last) /\ everywhere (clear_before_scripts ascii_letter ascii_continue) (spaced_row last)) /\
  (exists x, draw ascii_letter ascii_continue (spaced_row (sym "x")) = Ok x) /\ draw ascii_letter ascii_continue (spaced_row (sym "(")) = throw.
Proof.
  split; [split; reflexivity|]. split.
  - intros last [<-|[<-|[]]]; (split; [apply wf_rowb_ok; vm_compute; reflexivity|apply (@rows_b_ok no_ambiguous_b _ no_ambiguous_ok 5); vm_compute; reflexivity]).
  - split; [eexists; vm_compute; reflexivity|vm_compute; reflexivity].
Qed.
(** Between the two bounds: a closing bracket ends a token only if there is an opening one. *)
Example C50_between : (exists x, draw ascii_letter ascii_continue [sym "("; sym "a"; sym ")"; sym " "; sup [sym "2"]] = Ok x) /\
  draw ascii_letter ascii_continue [sym "a"; sym ")"; sym " "; sup [sym "2"]] = throw.
Proof. split; [eexists|]; vm_compute; reflexivity. Qed.
Example C50_sample : wf_row sample /\ everywhere two_cells sample /\ everywhere no_space_after_scripts sample /\ everywhere no_space_before_scripts sample.
Proof.
  split; [exact sample_wf|]. split; [apply (@rows_b_ok two_cells_b _ two_cells_b_ok 5); reflexivity|].
  split; (apply (@rows_b_ok no_spaces_b) with (fuel := 5); [intros row H; now apply no_spaces_b_ok|reflexivity]).
Qed.

(** * C51: every name in a syntax tree has a renderer *)
(** For all modules that contain the built-in rules and for which the renderers can be made:
    the assertion in renderer.ts:285 never fails. *)
Theorem C51_renderers : forall g doc n rs, no_empty_tokens g -> (forall name, In name built_in_names -> In name (grammar_names g)) ->
  parse g doc = Ok n -> make_renderers (grammar_names g) = Ok rs -> forall m, node_of m n -> exists r, get_renderer rs (syn_name m) = Some r.
Proof.
  intros g doc n rs Ht Hb En Hr m Hm. apply parse_shape in En; [|exact Ht]. destruct (tree_named g) as (T&_). specialize (T _ _ _ _ En m Hm).
  unfold make_renderers in Hr. apply bind_ok in Hr as (rs'&_&Hr). apply bind_ok in Hr as ([]&Ha&Hr). inv Hr. apply assert_inv in Ha. rewrite forallb_forall in Ha.
  assert (I : In (syn_name m) (grammar_names g)) by (destruct T; auto). apply Ha in I. destruct (get_renderer rs (syn_name m)); [eauto|discriminate].
Qed.
Print Assumptions C51_renderers.
(** The modules of the editor meet the hypotheses. *)
Theorem C51_default : forall xs xc, no_empty_tokens (default_grammar xs xc) /\ (forall name, In name built_in_names -> In name (grammar_names (default_grammar xs xc))) /\
  exists rs, make_renderers (grammar_names (default_grammar xs xc)) = Ok rs.
Proof.
  intros xs xc. split; [apply default_no_empty_tokens|]. split; [|eexists; apply default_make].
  assert (F : forallb (fun name => existsb (path_eqb name) (grammar_names (default_grammar xs xc))) built_in_names = true) by (vm_compute; reflexivity).
  rewrite forallb_forall in F. intros name H. apply F in H. apply existsb_exists in H as (y&Hy&E). apply path_eqb_eq in E. now subst.
Qed.
Print Assumptions C51_default.
(** A module with a name that has no renderer: the constructor throws. *)
Example C51_new_name : make_renderers (grammar_names (default_grammar ascii_letter ascii_continue) ++ [[lit "Custom"; lit "Rule"]]) = throw.
Proof. vm_compute. reflexivity. Qed.

(** * C52: the element of every row is found *)
(** For every row of the document, getElement gives the element that was made from the syntax
    tree of this row. *)
Theorem C52_rows : forall xs xc doc x p row, wf_row doc -> draw xs xc doc = Ok x -> row_get doc p = Some row ->
  exists x', get_element x p = Ok x' /\ parse (default_grammar xs xc) row = Ok (el_tree x').
Proof.
  intros xs xc doc x p row Hwf H Hrow. apply draw_inv in H as (n&En&Hx).
  destruct (find_parsed (@default_no_empty_tokens xs xc) (@default_all_containers xs xc) Hwf En Hrow) as (n'&En'&Ep).
  destruct (get_element_mirror (render_all_mirror Hx) En') as (x'&o'&ri'&Ex&M). exists x'. split; [exact Ex|]. now rewrite (mirror_tree M).
Qed.
Print Assumptions C52_rows.
Example C52_sample : ok_b (draw ascii_letter ascii_continue sample) = true /\ row_get sample [(1, 1); (0, 2)] = Some [sym "y"; sub [sym "1"]].
Proof. split; vm_compute; reflexivity. Qed.

(** * C53: the caret is drawn *)
(** No position of the caret makes getCaretPosition throw. *)
Theorem C53_total : forall xs xc doc x p row offset, wf_row doc -> draw xs xc doc = Ok x -> row_get doc p = Some row -> offset <= List.length row ->
  exists x' place, get_element x p = Ok x' /\ get_caret_position x' [] offset = Ok place.
Proof.
  intros xs xc doc x p row offset Hwf H Hrow Ho. apply draw_inv in H as (n&En&Hx).
  destruct (find_parsed (@default_no_empty_tokens xs xc) (@default_all_containers xs xc) Hwf En Hrow) as (n'&En'&Ep).
  destruct (get_element_mirror (render_all_mirror Hx) En') as (x'&o'&ri'&Ex&M). pose proof (row_get_wf Hwf Hrow) as Hwr.
  destruct (parse_gtree (@default_no_empty_tokens xs xc) (@default_all_containers xs xc) Hwr) as (n2&En2&T). rewrite Ep in En2. inv En2.
  destruct (proj1 (caret_total default_renderers (P (default_grammar xs xc))) _ _ _ _ M _ _ _ T (parse_leaves (@default_no_empty_tokens xs xc) Ep) [] offset) as (place&E); [lia|].
  exists x', place. auto.
Qed.
Print Assumptions C53_total.
(** Different positions in a row are drawn at different places. Missing: rows with "lim". *)
Theorem C53_distinct_partial : forall xs xc doc x p x' i j place, draw xs xc doc = Ok x -> wf_row doc -> everywhere (fun row => ~ spells_lim row) doc ->
  get_element x p = Ok x' -> (exists row, row_get doc p = Some row) -> get_caret_position x' [] i = Ok place -> get_caret_position x' [] j = Ok place -> i = j.
Proof.
  intros xs xc doc x p x' i j place H Hwf Hlim Ex (row&Hrow) Hi Hj. apply draw_inv in H as (n&En&Hx).
  destruct (find_parsed (@default_no_empty_tokens xs xc) (@default_all_containers xs xc) Hwf En Hrow) as (n'&En'&Ep).
  destruct (get_element_mirror (render_all_mirror Hx) En') as (x2&o'&ri'&Ex2&M). rewrite Ex in Ex2. inv Ex2.
  refine (proj1 (caret_injective default_renderers) _ _ _ _ M _ [] i j place Hi Hj). eapply parse_leaves_short; [apply default_no_empty_tokens|exact Ep|].
  intros q r Hq t l ty k (rule&Hin&Et) -> Hl Hr. apply (Hlim (p ++ q) r); [now rewrite row_get_app, Hrow|].
  assert (S : firstn 3 l = [[108%N]; [105%N]; [109%N]]).
  { assert (F : forallb (fun r => match rule_token r with Some (TSymbols l _) => (List.length l <=? 1) || path_eqb (firstn 3 l) [[108%N]; [105%N]; [109%N]] | _ => true end) (g_rules (default_grammar xs xc)) = true) by (vm_compute; reflexivity).
    rewrite forallb_forall in F. apply F in Hin. rewrite Et in Hin. apply orb_prop in Hin as [Hin|Hin]; [apply Nat.leb_le in Hin; lia|]. now apply path_eqb_eq in Hin. }
  destruct l as [|a [|b [|c l]]]; try discriminate. inv S. destruct Hr as (tail&Hr). exists k. rewrite !(Nat.add_comm _ k), <- !nth_error_skipn', Hr.
  split; [|split; reflexivity]. rewrite <- (Nat.add_0_r k), <- nth_error_skipn', Hr. reflexivity.
Qed.
Print Assumptions C53_distinct_partial.
(** The second and the third position in "lim" are drawn at the same place, after the "m". *)
Theorem C53_refuted : exists x place, draw ascii_letter ascii_continue [sym "l"; sym "i"; sym "m"] = Ok x /\
  get_caret_position x [] 1 = Ok place /\ get_caret_position x [] 2 = Ok place.
Proof. eexists. eexists. split; [vm_compute; reflexivity|]. split; vm_compute; reflexivity. Qed.
Print Assumptions C53_refuted.
Example C53_sample : everywhere (fun row => ~ spells_lim row) sample.
Proof.
  apply (@rows_b_ok (forallb (fun v => match v with Symbol [108%N] => false | _ => true end))) with (fuel := 5); [|reflexivity].
  intros row H (k&E&_). rewrite forallb_forall in H. specialize (H _ (nth_error_In _ _ E)). discriminate.
Qed.

Lemma default_scripts name tag : get_renderer default_renderers name = Some (RenderScript tag) -> name = sub_rule_name \/ name = sup_rule_name.
Proof.
  assert (F : forallb (fun e => match snd e with RenderScript _ => path_eqb (fst e) sub_rule_name || path_eqb (fst e) sup_rule_name | _ => true end) default_renderers = true) by (vm_compute; reflexivity).
  rewrite forallb_forall in F. unfold get_renderer. intros H. assert (In (name, RenderScript tag) default_renderers) as Hk.
  { clear F. induction default_renderers as [|[k v] l IH]; [discriminate|]. cbn in H. destruct (path_eqb name k) eqn:E; [inv H; apply path_eqb_eq in E; subst; now left|]. right. auto. }
  apply F in Hk. cbn in Hk. apply orb_prop in Hk as [Hk|Hk]; apply path_eqb_eq in Hk; auto.
Qed.

(** * C54: a click gives a position in the document *)
(** The whole row is a sub- or superscript, such as the exponent of x^(y^2). *)
Definition whole_script (xs xc : N -> bool) (row : InputRow) : Prop :=
  exists n, parse (default_grammar xs xc) row = Ok n /\ (syn_name n = sub_rule_name \/ syn_name n = sup_rule_name).
(** For all sizes and places of the elements. Missing: documents in which a row within a
    container is as a whole a sub- or superscript. *)
Theorem C54_click_partial : forall xs xc doc x to_bounds to_place, wf_row doc -> draw xs xc doc = Ok x ->
  (forall p row, p <> [] -> row_get doc p = Some row -> ~ whole_script xs xc row) ->
  exists p offset row, get_layout_position to_bounds to_place x = Ok (p, offset) /\ row_get doc p = Some row /\ offset <= List.length row.
Proof.
  intros xs xc doc x to_bounds to_place Hwf H Hs. apply draw_inv in H as (n&En&Hx).
  destruct (fun H => click_valid (@default_no_empty_tokens xs xc) (@default_all_containers xs xc) Hwf H to_bounds to_place En Hx) as (p&o&E&row&Hr&Ho).
  - intros p row n' Hp Hrow En' (tag&Et). apply (Hs p row Hp Hrow). exists n'. split; [exact En'|]. now apply default_scripts in Et.
  - eauto 6.
Qed.
Print Assumptions C54_click_partial.
(** x^(y^2): a click on the 2 gives a position that does not exist. The editor accepts it, and
    after that asking for the caret panics. *)
Definition nested_script : InputRow := [sym "x"; sup [sym "y"; sup [sym "2"]]].
Fixpoint prefix_b (a b : list nat) : bool :=
  match a, b with
  | [], _ => true
  | x :: a, y :: b => (x =? y) && prefix_b a b
  | _ :: _, [] => false
  end.
Theorem C54_refuted : exists x p offset,
  draw ascii_letter ascii_continue nested_script = Ok x /\
  get_layout_position (fun path => if prefix_b path [1; 0; 1; 0] then 0 else 1) (fun place => if prefix_b [1; 0; 1; 0] (fst place) then 0 else 1) x = Ok (p, offset) /\
  row_get nested_script p = None /\
  lost_caret debug_profile [OpSpliceAtRange (mkMinRange [] 0 0) nested_script; OpStartSelection (mkMinPos p offset) MChar].
Proof.
  eexists. exists [(1, 0); (1, 0); (1, 0)], 0. split; [vm_compute; reflexivity|]. split; [vm_compute; reflexivity|]. split; [reflexivity|].
  eexists. split; [vm_compute; reflexivity|]. split; [intros (row&Hr&_); vm_compute in Hr; discriminate|]. eexists. vm_compute. reflexivity.
Qed.
Print Assumptions C54_refuted.
(** A document without such rows: (a + 1)^2 / b *)
Definition quotient : InputRow := [fraction [sym "("; sym "a"; sym "+"; sym "1"; sym ")"; sup [sym "2"]; sym "+"; sym "3"] [sym "b"]].
Example C54_case : wf_row quotient /\ ok_b (draw ascii_letter ascii_continue quotient) = true /\
  (forall p row, p <> [] -> row_get quotient p = Some row -> ~ whole_script ascii_letter ascii_continue row).
Proof.
  split; [apply wf_rowb_ok; reflexivity|]. split; [vm_compute; reflexivity|]. intros p row _. revert p row.
  apply (@rows_b_ok (fun row => match parse ascii_grammar row with Ok n => negb (path_eqb (syn_name n) sub_rule_name || path_eqb (syn_name n) sup_rule_name) | Panic _ => true end)) with (fuel := 5); [|vm_compute; reflexivity].
  intros row H (n&En&Hn). unfold ascii_grammar in H. rewrite En in H. destruct Hn as [E|E]; rewrite E in H; vm_compute in H; discriminate.
Qed.

(** * C55: what is drawn is valid MathML *)
Theorem C55_valid : forall xs xc rs n x, make_renderers (grammar_names (default_grammar xs xc)) = Ok rs -> render_all rs n = Ok x -> forallb valid_dom (get_elements x) = true.
Proof. intros xs xc rs n x Hr Hx. rewrite default_make in Hr. assert (E : rs = default_renderers) by congruence. clear Hr. subst rs. exact (render_valid default_good (Nat.lt_succ_diag_r _) Hx). Qed.
Print Assumptions C55_valid.
(** A fraction with three children, a table with rows of different lengths: not valid. *)
Example C55_invalid :
  let x := create_math_element Tmi [DomText [120%N]] in let cell := create_math_element Tmtd [x] in
  valid_dom (create_math_element Tmfrac [x; x; x]) = false /\ valid_dom (create_math_element Tmrow [DomText [120%N]]) = false /\
  valid_dom (create_math_element Tmtable [create_math_element Tmtr [cell; cell]; create_math_element Tmtr [cell]]) = false /\
  valid_dom (create_math_element Tmtable [create_math_element Tmtr [cell; cell]; create_math_element Tmtr [cell; cell]]) = true.
Proof. vm_compute. auto. Qed.

(** * C56: what is drawn shows the text of the document *)
(** Nothing is lost and nothing is added but placeholders. The texts are in the order of the
    document except that the radicand of a root is in front of its index. *)
Theorem C56_text : forall xs xc doc x, wf_row doc -> draw xs xc doc = Ok x -> exists texts fillers,
  Permutation (flat_map dom_texts (get_elements x)) (texts ++ fillers) /\ concat texts = concat (Spec.symbols doc) /\
  Forall (fun t => t = missing_text \/ t = placeholder) fillers.
Proof.
  intros xs xc doc x Hwf H. apply draw_inv in H as (n&En&Hx). destruct (render_texts (Nat.lt_succ_diag_r _) Hx) as (l&P&F). exists (tree_symbols n), l. split; [exact P|]. split; [|exact F].
  rewrite (tree_symbols_text (Nat.lt_succ_diag_r _)). eapply parse_text; eauto using default_no_empty_tokens, default_all_containers.
Qed.
Print Assumptions C56_text.

(** * C57: the selection is drawn *)
(** No selection within a row makes getViewportSelection throw, and one that is not empty has
    elements that give it its height. *)
Theorem C57_selection : forall xs xc doc x p row a b, wf_row doc -> draw xs xc doc = Ok x -> row_get doc p = Some row -> a <= List.length row -> b <= List.length row ->
  exists pa pb l, get_viewport_selection x p a b = Ok (pa, pb, l) /\ (a <> b -> l <> []).
Proof.
  intros xs xc doc x p row a b Hwf H Hrow Ha Hb.
  destruct (C53_total xs xc doc x p row _ Hwf H Hrow (Nat.le_0_l _)) as (x'&p0&Ex&E0). destruct (C53_total xs xc doc x p row _ Hwf H Hrow Ha) as (x1&pa&Ex1&Ea). destruct (C53_total xs xc doc x p row _ Hwf H Hrow Hb) as (x2&pb&Ex2&Eb).
  rewrite Ex in Ex1, Ex2. inv Ex1. inv Ex2. unfold get_viewport_selection. rewrite Ex. cbn [bind]. rewrite E0, Ea, Eb. cbn [bind]. do 3 eexists. split; [reflexivity|]. intros Hab.
  apply Nat.eqb_neq in Hab. rewrite Hab. apply Nat.eqb_neq in Hab. apply draw_inv in H as (n&En&Hx).
  destruct (find_parsed (@default_no_empty_tokens xs xc) (@default_all_containers xs xc) Hwf En Hrow) as (n'&En'&Ep).
  destruct (get_element_mirror (render_all_mirror Hx) En') as (x3&o'&ri'&Ex3&M). rewrite Ex in Ex3. inv Ex3. pose proof (row_get_wf Hwf Hrow) as Hwr.
  destruct (parse_gtree (@default_no_empty_tokens xs xc) (@default_all_containers xs xc) Hwr) as (n2&En2&T). rewrite Ep in En2. inv En2.
  refine (proj1 (@selection_some default_renderers (P (default_grammar xs xc)) (Nat.min a b) (Nat.max a b) _) _ _ _ _ M _ _ _ T _ _ []); lia.
Qed.
Print Assumptions C57_selection.
Example C57_case : exists x pa pb l, draw ascii_letter ascii_continue sample = Ok x /\ get_viewport_selection x [(1, 0)] 3 1 = Ok (pa, pb, l) /\ l = [[0]; [1]].
Proof. do 4 eexists. split; [vm_compute; reflexivity|]. split; [vm_compute; reflexivity|]. reflexivity. Qed.
