(** Parsing a well-formed row returns a tree that covers it. *)
From Coq Require Import String.
From Verif Require Import Base Str Grid Node Focus Autocomplete Spec NameMap Syntax Pratt SyntaxFind SpecSyntax BaseFacts TreeFacts ParseFacts.
Open Scope list_scope.
Open Scope nat_scope.
Set Implicit Arguments.
Unset Strict Implicit.

Section Total.
Variable g : Grammar.
Hypothesis Htok : no_empty_tokens g.
Hypothesis Hcont : all_containers g.

(** The tree of a cell is what parsing the cell returns. *)
Definition P (cell : InputRow) (n : SyntaxNode) : Prop := exists k, row_size cell < k /\ parse_row_with (pratt_parse g k) cell = Ok n.
(** Does something start here? *)
Definition starts (rec : Power -> Ending -> Input -> Res (PrattResult * Input)) (i : Input) : Prop :=
  (exists x, parse_prefix g rec i = Ok (Some x)) \/ (exists x, parse_atom g rec i = Ok (Some x)).
(** Two calls of the parser return the same for all rows of a size less than [f]. *)
Definition rec_ok (f : nat) (rec rec' : Power -> Ending -> Input -> Res (PrattResult * Input)) : Prop :=
  forall row pos min e, wf_row row -> pos <= length row -> row_size (skipn pos row) < f ->
  exists ended n pos', rec min e (inp row pos) = Ok ((ended, n), inp row pos') /\ rec' min e (inp row pos) = Ok ((ended, n), inp row pos') /\
    pos <= pos' <= length row /\ gtree P row pos pos' n /\
    (ended = true -> is_at_end e (inp row pos') = true) /\
    (min = (0, Weak) -> ended = true) /\
    (starts rec (inp row pos) -> pos < pos').

(** The result of a parser of tokens. *)
Definition advances A (row : InputRow) (pos : nat) (post : A -> nat -> Prop) (r r' : PRes A) : Prop :=
  exists o, r = Ok o /\ r' = Ok o /\
  match o with
  | Some (x, i) => exists pos', i = inp row pos' /\ pos < pos' <= length row /\ post x pos'
  | None => True
  end.

Section Step.
Variables (f : nat) (rec rec' : Power -> Ending -> Input -> Res (PrattResult * Input)).
Hypothesis R : rec_ok f rec rec'.
Hypothesis RP : forall cell n, row_size cell < f -> parse_row_with rec cell = Ok n -> P cell n.

Definition token_ok (row : InputRow) (pos : nat) (c : SyntaxNodeChildren) (pos' : nat) : Prop :=
  forall name, syntax_node_new name (pos, pos') c = Ok (mkSyntax name c pos pos') /\ gtree P row pos pos' (mkSyntax name c pos pos').
Definition node_ok (row : InputRow) (pos : nat) (n : SyntaxNode) (pos' : nat) : Prop := gtree P row pos pos' n.

Lemma leaf_token_ok row pos ty o : pos <= length row -> leaf_ok row pos o -> advances row pos (token_ok row pos) (leaf_token ty o) (leaf_token ty o).
Proof.
  intros Hp H. unfold leaf_token. eexists. split; [reflexivity|]. split; [reflexivity|]. destruct o as [[l i]|]; [|exact I].
  destruct (H l i eq_refl) as (s&Hs&Hr&Hc&->). cbn. exists (pos + length s). split; [reflexivity|]. split.
  - pose proof (reads_le Hp Hr). destruct s; [congruence|cbn in *; lia].
  - intros name. now apply new_leaf.
Qed.

Lemma parse_row_ok row : wf_row row -> row_size row < f ->
  exists n, parse_row_with rec row = Ok n /\ parse_row_with rec' row = Ok n /\ gtree P row 0 (length row) n.
Proof.
  intros Hwf Hs. destruct (@R row 0 (0, Weak) EndInput) as (ended&n&pos&E&E'&Hp&C&He&Hm&_); auto; [lia|].
  rewrite (Hm eq_refl) in *. specialize (He eq_refl). unfold is_at_end in He. rewrite orb_diag in He.
  unfold parse_row_with. change (0, row) with (inp row 0). rewrite E, E'. cbn [bind]. rewrite He.
  apply at_end_inp in He; [|lia]. subst pos. eauto.
Qed.
Lemma map_rows_ok cells : (forall cell, In cell cells -> wf_row cell /\ row_size cell < f) ->
  exists nodes, map_res (parse_row_with rec) cells = Ok nodes /\ map_res (parse_row_with rec') cells = Ok nodes /\ Forall2 P cells nodes.
Proof.
  induction cells as [|cell cells IH]; intros H; [exists []; repeat split; constructor|].
  destruct (H cell (or_introl eq_refl)) as [Hw Hs]. destruct (parse_row_ok Hw Hs) as (n&E&E'&C).
  destruct IH as (nodes&En&En'&Cn); [intros; apply H; now right|].
  exists (n :: nodes). cbn [map_res]. rewrite E, E', En, En'. split; [reflexivity|]. split; [reflexivity|]. constructor; [now apply RP|exact Cn].
Qed.
Lemma cells_length cells nodes : Forall2 P cells nodes -> length nodes = length cells.
Proof. induction 1; cbn; congruence. Qed.

Lemma parse_token_ok row pos t : wf_row row -> pos <= length row -> row_size (skipn pos row) <= f -> (forall ty, t <> TSymbols [] ty) ->
  advances row pos (token_ok row pos) (parse_token g rec t (inp row pos)) (parse_token g rec' t (inp row pos)).
Proof.
  intros Hwf Hp Hs Ht. destruct t as [l ty|v|a b|a b| | |]; cbn [parse_token].
  - apply leaf_token_ok; auto. apply just_symbols_ok. intros ->. now apply (Ht ty).
  - assert (N : advances row pos (token_ok row pos) (Ok None) (Ok None)) by (exists None; auto).
    unfold inp. cbn [fst snd]. destruct (skipn pos row) as [|[v' c|s] r] eqn:E; auto.
    destruct (variant_eqb v' v); auto. destruct (skipn_cons_S E) as (E'&Hlt&En).
    destruct (wf_container_inv (wf_row_nth Hwf En)) as (Hw&Hne&Hmod&Hc).
    destruct (map_rows_ok (cells := gvalues c)) as (nodes&E1&E2&C).
    { intros cell Hin. split; [auto|]. rewrite <- E in Hs. pose proof (size_cell En Hin). lia. }
    rewrite E1, E2. cbn [bind]. unfold gwidth_of, gsize, udiv. destruct (gwidth c =? 0) eqn:E0; [lia|]. cbn [bind fst].
    unfold from_one_dimensional, umod. rewrite E0. assert (0 <? gwidth c = true) as -> by lia. cbn [bind assert_].
    rewrite (cells_length C), Hmod. cbn [bind assert_ Nat.eqb].
    eexists. split; [reflexivity|]. split; [reflexivity|]. exists (S pos). split; [unfold inp; now rewrite E'|]. split; [lia|].
    intros name. split; [reflexivity|]. destruct c as [cells w]. cbn [gwidth gvalues] in *. econstructor; eauto.
  - assert (N : advances row pos (token_ok row pos) (Ok None) (Ok None)) by (exists None; auto).
    destruct (just_symbol a (inp row pos)) as [[l i1]|] eqn:Ea; auto. apply just_symbol_inp in Ea as (->&->&Ra).
    pose proof (reads_le Hp Ra) as Hlt. cbn [length] in Hlt. rewrite Nat.add_1_r in Hlt.
    destruct (@R row (S pos) (0, Weak) (EndSymbol b)) as (ended&n&pos'&E&E'&Hp'&C&_); auto.
    { pose proof (@size_skipn row pos (S pos)). lia. }
    rewrite E, E'. cbn [bind]. destruct (just_symbol b (inp row pos')) as [[r i3]|] eqn:Eb; auto. apply just_symbol_inp in Eb as (->&->&Rb).
    pose proof (reads_le (proj2 Hp') Rb) as Hlt'. cbn [length] in Hlt'. rewrite Nat.add_1_r in Hlt'.
    destruct (new_leaf (P := P) operator_rule_name LOperator (symbols := [a]) Ra) as [E1 C1]; [discriminate|reflexivity|].
    destruct (new_leaf (P := P) operator_rule_name LOperator (symbols := [b]) Rb) as [E2 C2]; [discriminate|reflexivity|].
    cbn [length] in E1, C1, E2, C2. rewrite Nat.add_1_r in E1, C1, E2, C2. unfold span. cbn [inp fst]. rewrite E1, E2. cbn [bind].
    eexists. split; [reflexivity|]. split; [reflexivity|]. exists (S pos'). split; [reflexivity|]. split; [lia|].
    intros name. apply new_children. eapply tiles_3; eauto.
  - assert (N : advances row pos (token_ok row pos) (Ok None) (Ok None)) by (exists None; auto).
    destruct (just_symbol a (inp row pos)) as [[l i1]|] eqn:Ea; auto. apply just_symbol_inp in Ea as (->&->&Ra).
    pose proof (reads_le Hp Ra) as Hlt. cbn [length] in Hlt. rewrite Nat.add_1_r in Hlt.
    destruct (just_symbol b (inp row (S pos))) as [[r i3]|] eqn:Eb; auto. apply just_symbol_inp in Eb as (->&->&Rb).
    pose proof (reads_le Hlt Rb) as Hlt'. cbn [length] in Hlt'. rewrite Nat.add_1_r in Hlt'.
    destruct (new_leaf (P := P) operator_rule_name LOperator (symbols := [a]) Ra) as [E1 C1]; [discriminate|reflexivity|].
    destruct (new_leaf (P := P) operator_rule_name LOperator (symbols := [b]) Rb) as [E2 C2]; [discriminate|reflexivity|].
    cbn [length] in E1, C1, E2, C2. rewrite Nat.add_1_r in E1, C1, E2, C2. unfold span. cbn [inp fst]. rewrite E1, E2. cbn [bind].
    eexists. split; [reflexivity|]. split; [reflexivity|]. exists (S (S pos)). split; [reflexivity|]. split; [lia|].
    intros name. apply new_children. eapply tiles_2; eauto.
  - apply leaf_token_ok; auto. apply parse_number_ok.
  - apply leaf_token_ok; auto. apply parse_variable_ok.
  - apply leaf_token_ok; auto. apply parse_string_ok.
Qed.

Lemma parse_rule_ok row pos name t : wf_row row -> pos <= length row -> row_size (skipn pos row) <= f -> (forall ty, t <> TSymbols [] ty) ->
  advances row pos (node_ok row pos) (parse_rule g rec name t (inp row pos)) (parse_rule g rec' name t (inp row pos)).
Proof.
  intros Hwf Hp Hs Ht. unfold parse_rule. destruct (parse_spaces_ok (P := P) Hp) as (before&p1&E1&Hp1&C1). rewrite E1. cbn [bind].
  assert (Hs1 : row_size (skipn p1 row) <= f).
  { destruct (Nat.eq_dec p1 pos) as [->|]; [auto|]. pose proof (@size_skipn row pos p1). lia. }
  destruct (parse_token_ok (pos := p1) (t := t) Hwf) as (o&Er&Er'&Ho); auto; [lia|].
  rewrite Er, Er'. unfold pbind. cbn [bind]. destruct o as [[c i]|]; [|exists None; auto].
  destruct Ho as (p2&->&Hp2&Hc). destruct (Hc name) as [En Cn]. unfold span. cbn [inp fst]. rewrite En. cbn [bind].
  destruct (@parse_spaces_ok P row p2) as (after&p3&E3&Hp3&C3); [lia|]. change (parse_spaces (p2, skipn p2 row)) with (parse_spaces (inp row p2)). rewrite E3. cbn [bind fst inp].
  destruct (whitespaces_ok (s := pos) (e := p3) C1 Cn C3) as (n&E&C). rewrite E. cbn [bind].
  eexists. split; [reflexivity|]. split; [reflexivity|]. exists p3. split; [reflexivity|]. split; [lia|exact C].
Qed.
Lemma parse_script_ok row pos v : wf_row row -> pos <= length row -> row_size (skipn pos row) <= f ->
  advances row pos (node_ok row pos) (parse_script g rec v (inp row pos)) (parse_script g rec' v (inp row pos)).
Proof.
  intros Hwf Hp Hs. unfold parse_script.
  destruct (parse_token_ok (pos := pos) (t := TContainer v) Hwf) as (o&Er&Er'&Ho); auto; [discriminate|].
  rewrite Er, Er'. unfold pbind. cbn [bind]. destruct o as [[c i]|]; [|exists None; auto].
  destruct Ho as (p2&->&Hp2&Hc). destruct (Hc operator_rule_name) as [En Cn]. unfold span. cbn [inp fst]. rewrite En. cbn [bind].
  destruct (@parse_spaces_ok P row p2) as (after&p3&E3&Hp3&C3); [lia|]. change (parse_spaces (p2, skipn p2 row)) with (parse_spaces (inp row p2)). rewrite E3. cbn [bind fst inp].
  destruct (whitespaces_ok (s := pos) (before := None) (e := p3) eq_refl Cn C3) as (n&E&C). rewrite E. cbn [bind].
  eexists. split; [reflexivity|]. split; [reflexivity|]. exists p3. split; [reflexivity|]. split; [lia|exact C].
Qed.
Lemma build_postfix_ok row s m e name lhs op : gtree P row s m lhs -> gtree P row m e op ->
  exists n, build_postfix name op lhs = Ok n /\ gtree P row s e n.
Proof.
  intros H H'. unfold build_postfix. rewrite (gtree_range H), (gtree_range H'), combine_ranges_adjacent.
  - eexists. apply new_children. eapply tiles_2; eauto.
  - eapply gtree_le; eauto.
  - eapply gtree_le; eauto.
Qed.
Lemma build_prefix_ok row s m e name op rhs : gtree P row s m op -> gtree P row m e rhs ->
  exists n, build_prefix name op rhs = Ok n /\ gtree P row s e n.
Proof.
  intros H H'. unfold build_prefix. rewrite (gtree_range H), (gtree_range H'), combine_ranges_adjacent.
  - eexists. apply new_children. eapply tiles_2; eauto.
  - eapply gtree_le; eauto.
  - eapply gtree_le; eauto.
Qed.
Lemma build_infix_ok row s m k e name lhs op rhs : gtree P row s m lhs -> gtree P row m k op -> gtree P row k e rhs ->
  exists n, build_infix name op lhs rhs = Ok n /\ gtree P row s e n.
Proof.
  intros H H' H''. pose proof (gtree_le H). pose proof (gtree_le H'). pose proof (gtree_le H'').
  unfold build_infix. rewrite (gtree_range H), (gtree_range H'), (gtree_range H''), !combine_ranges_adjacent by lia.
  eexists. apply new_children. eapply tiles_3; eauto.
Qed.
Lemma missing_token_ok row s : exists n, missing_token s = Ok n /\ gtree P row s s n.
Proof. eexists. apply new_children. constructor. Qed.
Lemma missing_operator_ok row s m e lhs rhs : gtree P row s m lhs -> gtree P row m e rhs ->
  exists n, missing_operator lhs rhs = Ok n /\ gtree P row s e n.
Proof.
  intros H H'. pose proof (gtree_le H). pose proof (gtree_le H').
  unfold missing_operator. rewrite (gtree_range H), (gtree_range H'). cbn [snd].
  destruct (missing_token_ok row m) as (t&->&C). cbn [bind]. rewrite combine_ranges_adjacent by lia.
  eexists. apply new_children. eapply tiles_3; eauto.
Qed.
Lemma unknown_token_ok row pos s : nth_error row pos = Some (Symbol s) -> exists n, unknown_token pos (Symbol s) = Ok n /\ gtree P row pos (S pos) n.
Proof.
  intros H. cbn [unknown_token]. destruct (new_leaf (P := P) error_unknown_token_name LSymbol (symbols := [s]) (reads_one H)) as [E C]; [discriminate|reflexivity|].
  cbn [length] in *. rewrite Nat.add_1_r in *. eauto.
Qed.

Lemma smaller row pos pos' : pos <= pos' <= length row -> row_size (skipn pos row) <= f -> row_size (skipn pos' row) <= f.
Proof. intros H Hs. destruct (Nat.eq_dec pos' pos) as [->|]; [auto|]. pose proof (@size_skipn row pos pos'). lia. Qed.
Lemma parse_scripts_ok row s : forall fuel pos node, wf_row row -> pos <= length row -> row_size (skipn pos row) <= f -> gtree P row s pos node ->
  exists n pos', parse_scripts g rec fuel node (inp row pos) = Ok (n, inp row pos') /\ parse_scripts g rec' fuel node (inp row pos) = Ok (n, inp row pos') /\
    pos <= pos' <= length row /\ gtree P row s pos' n.
Proof.
  induction fuel as [|fuel IH]; intros pos node Hwf Hp Hs C; cbn [parse_scripts]; [do 2 eexists; repeat split; eauto|].
  destruct (parse_script_ok Sub Hwf Hp Hs) as (o&E&E'&Ho). rewrite E, E'. cbn [bind]. destruct o as [[op i]|].
  - destruct Ho as (p1&->&Hp1&C1). destruct (build_postfix_ok sub_rule_name C C1) as (n&En&Cn). rewrite En. cbn [bind].
    destruct (IH p1 n) as (n'&p2&E1&E2&Hp2&C2); auto; [lia|apply (@smaller row pos p1); auto; lia|].
    rewrite E1, E2. do 2 eexists. repeat split; eauto; lia.
  - clear E E' Ho. destruct (parse_script_ok Sup Hwf Hp Hs) as (o&E&E'&Ho). rewrite E, E'. cbn [bind]. destruct o as [[op i]|].
    + destruct Ho as (p1&->&Hp1&C1). destruct (build_postfix_ok sup_rule_name C C1) as (n&En&Cn). rewrite En. cbn [bind].
      destruct (IH p1 n) as (n'&p2&E1&E2&Hp2&C2); auto; [lia|apply (@smaller row pos p1); auto; lia|].
      rewrite E1, E2. do 2 eexists. repeat split; eauto; lia.
    + do 2 eexists. repeat split; eauto.
Qed.

Definition good_op (op : OpParser) : Prop := forall ty, op_token op <> TSymbols [] ty.
Lemma parse_op_ok row pos op : wf_row row -> pos <= length row -> row_size (skipn pos row) <= f -> good_op op ->
  advances row pos (node_ok row pos) (parse_op g rec op (inp row pos)) (parse_op g rec' op (inp row pos)).
Proof.
  intros Hwf Hp Hs Hop. pose proof (parse_rule_ok operator_rule_name Hwf Hp Hs Hop) as H.
  assert (W : advances row pos (node_ok row pos)
    (pbind (parse_rule g rec operator_rule_name (op_token op) (inp row pos)) (fun node i1 => r <- parse_scripts g rec (length (snd i1)) node i1 ;; Ok (Some r)))
    (pbind (parse_rule g rec' operator_rule_name (op_token op) (inp row pos)) (fun node i1 => r <- parse_scripts g rec' (length (snd i1)) node i1 ;; Ok (Some r)))).
  { destruct H as (o&E&E'&Ho). rewrite E, E'. unfold pbind. cbn [bind]. destruct o as [[n i]|]; [|exists None; auto].
    destruct Ho as (p1&->&Hp1&C). destruct (@parse_scripts_ok row pos (length (snd (inp row p1))) p1 n) as (n'&p2&E1&E2&Hp2&C2); auto; [lia|apply (@smaller row pos p1); auto; lia|].
    rewrite E1, E2. cbn [bind]. eexists. split; [reflexivity|]. split; [reflexivity|]. exists p2. split; [reflexivity|]. split; [lia|exact C2]. }
  unfold parse_op. destruct (op_power op); auto.
Qed.
Lemma parse_iter_ok row pos ops : wf_row row -> pos <= length row -> row_size (skipn pos row) <= f -> (forall op, In op ops -> good_op op) ->
  advances row pos (fun x => node_ok row pos (fst x)) (parse_iter g rec ops (inp row pos)) (parse_iter g rec' ops (inp row pos)).
Proof.
  intros Hwf Hp Hs. induction ops as [|op ops IH]; intros Hops; cbn [parse_iter]; [exists None; auto|].
  destruct (parse_op_ok Hwf Hp Hs (Hops op (or_introl eq_refl))) as (o&E&E'&Ho). rewrite E, E'. cbn [bind].
  destruct o as [[n i]|]; [|apply IH; intros; apply Hops; now right].
  eexists. split; [reflexivity|]. split; [reflexivity|]. exact Ho.
Qed.
Lemma parse_choice_ok row pos rules : wf_row row -> pos <= length row -> row_size (skipn pos row) <= f ->
  (forall name t, In (name, t) rules -> forall ty, t <> TSymbols [] ty) ->
  advances row pos (node_ok row pos) (parse_choice g rec rules (inp row pos)) (parse_choice g rec' rules (inp row pos)).
Proof.
  intros Hwf Hp Hs. induction rules as [|[name t] rules IH]; intros Hops; cbn [parse_choice]; [exists None; auto|].
  destruct (parse_rule_ok name Hwf Hp Hs (Hops name t (or_introl eq_refl))) as (o&E&E'&Ho). rewrite E, E'. cbn [bind].
  destruct o as [[n i]|]; [|apply IH; intros name' t' Hin; apply (Hops name'); now right].
  eexists. split; [reflexivity|]. split; [reflexivity|]. exact Ho.
Qed.

(** The operators and atoms of the grammar. *)
Lemma ops_in (sel : ParseRule -> option OpParser) op : In op (g_ops sel g) <-> exists r, In r (g_rules g) /\ sel r = Some op.
Proof.
  unfold g_ops. rewrite in_flat_map. split.
  - intros (r&Hr&Ho). exists r. split; [now apply in_rev|]. destruct (sel r); [|easy]. now destruct Ho as [->|[]].
  - intros (r&Hr&Ho). exists r. split; [now apply -> in_rev|]. rewrite Ho. now left.
Qed.
Lemma prefix_ops_good op : In op (prefix_ops g) -> good_op op.
Proof. intros H. apply ops_in in H as (r&Hr&E). destruct r; try discriminate. inv E. intros ty. now apply (Htok Hr). Qed.
Lemma infix_ops_good op : In op (infix_ops g) -> good_op op.
Proof. intros H. apply ops_in in H as (r&Hr&E). destruct r; try discriminate; inv E; intros ty; now apply (Htok Hr). Qed.
Lemma postfix_ops_good op : In op (postfix_ops g) -> good_op op.
Proof. intros H. apply ops_in in H as (r&Hr&E). destruct r; try discriminate. inv E. intros ty. now apply (Htok Hr). Qed.
Lemma atoms_in name t : In (name, t) (atom_rules g) <-> In (RAtom name t) (g_rules g).
Proof.
  unfold atom_rules. rewrite in_flat_map. split.
  - intros (r&Hr&Ho). apply in_rev in Hr. destruct r; try easy. destruct Ho as [E|[]]. now inv E.
  - intros H. exists (RAtom name t). split; [now apply -> in_rev|now left].
Qed.
Lemma atoms_good name t : In (name, t) (atom_rules g) -> forall ty, t <> TSymbols [] ty.
Proof. intros H ty. apply atoms_in in H. now apply (Htok H). Qed.

Lemma parse_prefix_ok row pos : wf_row row -> pos <= length row -> row_size (skipn pos row) <= f ->
  advances row pos (fun x => node_ok row pos (fst x)) (parse_prefix g rec (inp row pos)) (parse_prefix g rec' (inp row pos)).
Proof. intros. apply parse_iter_ok; auto. apply prefix_ops_good. Qed.
Lemma parse_infix_ok row pos : wf_row row -> pos <= length row -> row_size (skipn pos row) <= f ->
  advances row pos (fun x => node_ok row pos (fst x)) (parse_infix g rec (inp row pos)) (parse_infix g rec' (inp row pos)).
Proof. intros. apply parse_iter_ok; auto. apply infix_ops_good. Qed.
Lemma parse_postfix_ok row pos : wf_row row -> pos <= length row -> row_size (skipn pos row) <= f ->
  advances row pos (fun x => node_ok row pos (fst x)) (parse_postfix g rec (inp row pos)) (parse_postfix g rec' (inp row pos)).
Proof. intros. apply parse_iter_ok; auto. apply postfix_ops_good. Qed.
Lemma parse_atom_ok row pos : wf_row row -> pos <= length row -> row_size (skipn pos row) <= f ->
  advances row pos (node_ok row pos) (parse_atom g rec (inp row pos)) (parse_atom g rec' (inp row pos)).
Proof. intros. apply parse_choice_ok; auto. apply atoms_good. Qed.

(** Containers are tokens. *)
Lemma container_rule row pos v c name : wf_row row -> row_size (skipn pos row) <= f -> nth_error row pos = Some (Container v c) ->
  parse_rule g rec name (TContainer v) (inp row pos) <> Ok None.
Proof.
  intros Hwf Hs Hn H. pose proof (nth_error_Some_lt Hn) as Hlt. destruct (skipn_lt Hlt) as [n E]. destruct (skipn_cons_S E) as (_&_&En).
  rewrite En in Hn. inv Hn.
  assert (S0 : parse_spaces (inp row pos) = Ok (None, inp row pos)).
  { unfold parse_spaces, repeat_symbols, inp. cbn [fst snd]. now rewrite E. }
  unfold parse_rule in H. rewrite S0 in H. cbn [bind] in H.
  destruct (parse_token_ok (pos := pos) (t := TContainer v) Hwf) as (o&Er&_&Ho); auto; [lia|discriminate|].
  unfold pbind in H. rewrite Er in H. cbn [bind] in H. destruct o as [[c' i]|].
  - destruct Ho as (p2&->&Hp2&Hc). destruct (Hc name) as [En' Cn].
    change (span (inp row pos) (inp row p2)) with (pos, p2) in H. rewrite En' in H. cbn [bind] in H.
    destruct (@parse_spaces_ok P row p2) as (after&p3&E3&Hp3&C3); [lia|]. rewrite E3 in H. cbn [bind] in H.
    destruct (whitespaces_ok (s := pos) (before := None) (e := p3) eq_refl Cn C3) as (n&E'&C).
    change (span (inp row pos) (inp row p3)) with (pos, p3) in H. rewrite E' in H. discriminate.
  - unfold inp in Er. rewrite E in Er. cbn [parse_token snd] in Er. assert (variant_eqb v v = true) as Hv by now destruct v. rewrite Hv in Er.
    repeat (apply bind_ok in Er as (?&_&Er)). discriminate.
Qed.
Lemma container_op row pos v c op : wf_row row -> row_size (skipn pos row) <= f -> nth_error row pos = Some (Container v c) ->
  op_token op = TContainer v -> parse_op g rec op (inp row pos) <> Ok None.
Proof.
  intros Hwf Hs Hn Ht H. unfold parse_op in H. rewrite Ht in H. pose proof (nth_error_Some_lt Hn) as Hlt.
  pose proof (container_rule (name := operator_rule_name) Hwf Hs Hn) as Hr.
  destruct (parse_rule_ok (pos := pos) operator_rule_name (t := TContainer v) Hwf) as (o&E&_&_); auto; [lia|discriminate|].
  rewrite E in H. destruct o as [[n i]|]; [|congruence]. unfold pbind in H. cbn [bind] in H.
  destruct (op_power op); try discriminate; apply bind_ok in H as (?&_&H); discriminate.
Qed.
Lemma parse_iter_none i ops op : parse_iter g rec ops i = Ok None -> In op ops -> parse_op g rec op i = Ok None.
Proof.
  induction ops as [|o ops IH]; intros H; [easy|]. cbn [parse_iter] in H. apply bind_ok in H as ([[n i']|]&E&H); [discriminate|].
  intros [<-|Hin]; auto.
Qed.
Lemma parse_choice_none i rules name t : parse_choice g rec rules i = Ok None -> In (name, t) rules -> parse_rule g rec name t i = Ok None.
Proof.
  induction rules as [|[n' t'] rules IH]; intros H; [easy|]. cbn [parse_choice] in H. apply bind_ok in H as ([[n i']|]&E&H); [discriminate|].
  intros [E'|Hin]; auto. now inv E'.
Qed.
Lemma none_symbol row pos : wf_row row -> pos < length row -> row_size (skipn pos row) <= f ->
  parse_prefix g rec (inp row pos) = Ok None -> parse_atom g rec (inp row pos) = Ok None ->
  parse_infix g rec (inp row pos) = Ok None -> parse_postfix g rec (inp row pos) = Ok None ->
  exists s, nth_error row pos = Some (Symbol s).
Proof.
  intros Hwf Hlt Hs E1 E2 E3 E4. destruct (nth_error_lt_Some Hlt) as [[v c|s] En]; [exfalso|eauto].
  destruct (Hcont v) as (r&Hr&Ht).
  assert (K : forall op, op_token op = TContainer v -> parse_op g rec op (inp row pos) = Ok None -> False).
  { intros op Ho. eapply container_op; eauto. }
  destruct r as [name|name t|name p t|name p t|name p t|name p t]; try discriminate; injection Ht as ->.
  - apply (@container_rule row pos v c name Hwf Hs En). eapply parse_choice_none; [exact E2|]. now apply atoms_in.
  - apply (K (mkOp (BPrefix p) (TContainer v) name) eq_refl). eapply parse_iter_none; [exact E1|]. apply ops_in. eauto.
  - apply (K (mkOp (BLeftInfix p) (TContainer v) name) eq_refl). eapply parse_iter_none; [exact E3|]. apply ops_in. eauto.
  - apply (K (mkOp (BRightInfix p) (TContainer v) name) eq_refl). eapply parse_iter_none; [exact E3|]. apply ops_in. eauto.
  - apply (K (mkOp (BPostfix p) (TContainer v) name) eq_refl). eapply parse_iter_none; [exact E4|]. apply ops_in. eauto.
Qed.

(** ** Unknown tokens *)
(** What [can_parse] returns. *)
Definition is_some A (o : option A) : bool := match o with Some _ => true | None => false end.
Lemma can_parse_ok A row pos (post : A -> nat -> Prop) (p p' : Input -> PRes A) : advances row pos post (p (inp row pos)) (p' (inp row pos)) ->
  exists o, p (inp row pos) = Ok o /\ can_parse p (inp row pos) = Ok (is_some o) /\ can_parse p' (inp row pos) = Ok (is_some o).
Proof. intros (o&E&E'&_). exists o. unfold can_parse. rewrite E, E'. cbn [bind]. auto. Qed.

Lemma unknown_loop_ok row s e : wf_row row -> forall k pos node, length row - pos <= k -> pos <= length row -> row_size (skipn pos row) <= f -> gtree P row s pos node ->
  exists n pos', unknown_loop g rec e node pos (skipn pos row) = Ok (n, inp row pos') /\ unknown_loop g rec' e node pos (skipn pos row) = Ok (n, inp row pos') /\
    pos <= pos' <= length row /\ gtree P row s pos' n.
Proof.
  intros Hwf. induction k as [|k IH]; intros pos node Hk Hp Hs C.
  - assert (pos = length row) as -> by lia. rewrite skipn_all. cbn. exists node, (length row). unfold inp. rewrite skipn_all. repeat split; auto.
  - destruct (can_parse_ok (parse_prefix_ok Hwf Hp Hs)) as (o1&P1&P1'&P1'').
    destruct (can_parse_ok (parse_atom_ok Hwf Hp Hs)) as (o2&P2&P2'&P2'').
    destruct (can_parse_ok (parse_infix_ok Hwf Hp Hs)) as (o3&P3&P3'&P3'').
    destruct (can_parse_ok (parse_postfix_ok Hwf Hp Hs)) as (o4&P4&P4'&P4'').
    unfold inp in P1', P1'', P2', P2'', P3', P3'', P4', P4''.
    assert (D : exists n pos', Ok (node, (pos, skipn pos row)) = Ok (n, inp row pos') /\ Ok (node, (pos, skipn pos row)) = Ok (n, inp row pos') /\
      pos <= pos' <= length row /\ gtree P row s pos' n) by (exists node, pos; auto).
    assert (U : forall rec, unknown_loop g rec e node pos (skipn pos row) =
      (stop <- (if is_at_end e (pos, skipn pos row) then Ok true
           else or_else (can_parse (parse_prefix g rec) (pos, skipn pos row)) (or_else (can_parse (parse_atom g rec) (pos, skipn pos row))
                (or_else (can_parse (parse_infix g rec) (pos, skipn pos row)) (can_parse (parse_postfix g rec) (pos, skipn pos row))))) ;;
       if stop then Ok (node, (pos, skipn pos row))
       else match skipn pos row with
       | [] => Panic PUnwrap
       | n :: r =>
           next <- unknown_token pos n ;;
           node <- missing_operator node next ;;
           unknown_loop g rec e node (S pos) r
       end)) by (intros; now destruct (skipn pos row)).
    rewrite !U. clear U. rewrite P1', P1'', P2', P2'', P3', P3'', P4', P4''.
    destruct (is_at_end e (pos, skipn pos row)) eqn:Ee; [exact D|].
    unfold or_else. cbn [bind].
    destruct o1; [exact D|]. destruct o2; [exact D|]. destruct o3; [exact D|]. destruct o4; [exact D|]. cbn [bind is_some].
    assert (Hlt : pos < length row).
    { destruct (Nat.eq_dec pos (length row)) as [->|]; [|lia]. unfold is_at_end in Ee. rewrite skipn_all in Ee. discriminate. }
    destruct (none_symbol Hwf Hlt Hs P1 P2 P3 P4) as [sy Hsy]. destruct (skipn_lt Hlt) as [x E]. destruct (skipn_cons_S E) as (_&_&En).
    rewrite En in Hsy. inv Hsy. rewrite E. destruct (unknown_token_ok En) as (next&->&Cn). cbn [bind].
    destruct (missing_operator_ok C Cn) as (n&->&Cm). cbn [bind].
    destruct (IH (S pos) n) as (n'&p'&E1&E2&Hp'&C'); auto; [lia|apply (@smaller row pos (S pos)); auto; lia|].
    rewrite E1, E2. exists n', p'. repeat split; auto; lia.
Qed.
Lemma parse_unknown_ok row pos e : wf_row row -> pos < length row -> row_size (skipn pos row) <= f ->
  parse_prefix g rec (inp row pos) = Ok None -> parse_atom g rec (inp row pos) = Ok None ->
  parse_infix g rec (inp row pos) = Ok None -> parse_postfix g rec (inp row pos) = Ok None ->
  exists n pos', parse_unknown g rec e (inp row pos) = Ok (n, inp row pos') /\ parse_unknown g rec' e (inp row pos) = Ok (n, inp row pos') /\
    pos < pos' <= length row /\ gtree P row pos pos' n.
Proof.
  intros Hwf Hlt Hs E1 E2 E3 E4. destruct (none_symbol Hwf Hlt Hs E1 E2 E3 E4) as [sy Hsy].
  destruct (skipn_lt Hlt) as [x E]. destruct (skipn_cons_S E) as (_&_&En). rewrite En in Hsy. inv Hsy.
  unfold parse_unknown. cbn [inp fst snd]. rewrite E. destruct (unknown_token_ok En) as (next&->&Cn). cbn [bind].
  destruct (@unknown_loop_ok row pos e Hwf (length row - S pos) (S pos) next) as (n&p'&U1&U2&Hp'&C); auto; [apply (@smaller row pos (S pos)); auto; lia|].
  rewrite U1, U2. exists n, p'. repeat split; auto; lia.
Qed.

(** ** The first operand *)
(** Something is missing only if an operator follows. *)
Definition operator_next (i : Input) : Prop := (exists x, parse_infix g rec i = Ok (Some x)) \/ (exists x, parse_postfix g rec i = Ok (Some x)).
Lemma pratt_first_ok row pos e : wf_row row -> pos <= length row -> row_size (skipn pos row) <= f ->
  exists ended n pos', pratt_first g rec e (inp row pos) = Ok ((ended, n), inp row pos') /\ pratt_first g rec' e (inp row pos) = Ok ((ended, n), inp row pos') /\
    pos <= pos' <= length row /\ gtree P row pos pos' n /\
    (ended = true -> is_at_end e (inp row pos') = true) /\
    (ended = false -> pos < pos' \/ operator_next (inp row pos')) /\
    (starts rec (inp row pos) -> pos < pos').
Proof.
  intros Hwf Hp Hs. unfold pratt_first.
  pose proof (parse_prefix_ok Hwf Hp Hs) as (o1&P1&P1'&H1).
  pose proof (parse_atom_ok Hwf Hp Hs) as (o2&P2&P2'&H2).
  destruct (can_parse_ok (parse_infix_ok Hwf Hp Hs)) as (o3&P3&P3'&P3'').
  destruct (can_parse_ok (parse_postfix_ok Hwf Hp Hs)) as (o4&P4&P4'&P4'').
  destruct (missing_token_ok row pos) as (mt&Em&Cm).
  destruct (at_end (inp row pos)) eqn:Ee.
  { cbn [inp fst]. rewrite Em. cbn [bind]. exists true, mt, pos. split; [reflexivity|]. split; [reflexivity|]. split; [lia|]. split; [exact Cm|].
    split; [intros _; unfold is_at_end; now rewrite Ee|]. split; [discriminate|]. apply at_end_inp in Ee; auto. subst pos.
    intros [[[x i] Ex]|[[x i] Ex]].
    - rewrite P1 in Ex. inv Ex. destruct H1 as (p&_&?&_). lia.
    - rewrite P2 in Ex. inv Ex. destruct H2 as (p&_&?&_). lia. }
  rewrite P1, P1'. cbn [bind]. destruct o1 as [[[value op] i1]|].
  { destruct H1 as (p1&->&Hp1&C1). unfold node_ok in C1. cbn [fst] in C1.
    destruct (@R row p1 (strength_right (op_power op)) e) as (ended&rhs&p2&E2&E2'&Hp2&C2&He&_&_); auto; [lia|pose proof (@size_skipn row pos p1); lia|].
    rewrite E2, E2'. cbn [bind]. destruct (build_prefix_ok (op_name op) C1 C2) as (n&En&C). rewrite En. cbn [bind].
    exists ended, n, p2. repeat split; auto; try lia. }
  rewrite P2, P2'. cbn [bind]. destruct o2 as [[n i1]|].
  { destruct H2 as (p1&->&Hp1&C1). exists false, n, p1. repeat split; auto; try lia; discriminate. }
  assert (NS : ~ starts rec (inp row pos)).
  { intros [[x Ex]|[x Ex]]; congruence. }
  rewrite P3', P3'', P4', P4''. unfold or_else. cbn [bind].
  assert (D : is_some o3 = true \/ is_some o4 = true -> operator_next (inp row pos)).
  { intros [H|H]; [left; destruct o3; [eauto|discriminate]|right; destruct o4; [eauto|discriminate]]. }
  assert (M : (is_some o3 = true \/ is_some o4 = true) -> exists ended n pos', (n <- missing_token (fst (inp row pos));; Ok (false, n, inp row pos)) = Ok (ended, n, inp row pos') /\
     (n <- missing_token (fst (inp row pos));; Ok (false, n, inp row pos)) = Ok (ended, n, inp row pos') /\
    pos <= pos' <= length row /\ gtree P row pos pos' n /\
    (ended = true -> is_at_end e (inp row pos') = true) /\
    (ended = false -> pos < pos' \/ operator_next (inp row pos')) /\
    (starts rec (inp row pos) -> pos < pos')).
  { intros X. cbn [inp fst]. rewrite Em. cbn [bind]. exists false, mt, pos. repeat split; auto; try lia; try discriminate; tauto. }
  destruct o3; [apply M; now left|]. cbn [is_some bind]. destruct o4; [apply M; now right|]. cbn [is_some].
  clear M D. destruct (is_at_end e (inp row pos)) eqn:Ee'.
  { cbn [inp fst]. rewrite Em. cbn [bind]. exists true, mt, pos. repeat split; auto; try lia; try discriminate; tauto. }
  assert (Hlt : pos < length row).
  { destruct (Nat.eq_dec pos (length row)) as [->|]; [|lia]. unfold at_end, inp in Ee. cbn [snd] in Ee. rewrite skipn_all in Ee. discriminate. }
  destruct (parse_unknown_ok e Hwf Hlt Hs P1 P2 P3 P4) as (n&p1&E1&E1'&Hp1&C1). rewrite E1, E1'. cbn [bind].
  exists false, n, p1. repeat split; auto; try lia; discriminate.
Qed.

(** ** The loop *)
Lemma power_ltb_0 p : power_ltb p (0, Weak) = false.
Proof. destruct p as [[|v] []]; reflexivity. Qed.
Lemma pratt_loop_ok row s min e : wf_row row -> forall fuel pos lhs, length row - pos < fuel -> pos <= length row -> row_size (skipn pos row) <= f ->
  (row_size (skipn pos row) < f \/ operator_next (inp row pos)) -> gtree P row s pos lhs ->
  exists ended n pos', pratt_loop g rec fuel min e lhs (inp row pos) = Ok ((ended, n), inp row pos') /\ pratt_loop g rec' fuel min e lhs (inp row pos) = Ok ((ended, n), inp row pos') /\
    pos <= pos' <= length row /\ gtree P row s pos' n /\
    (ended = true -> is_at_end e (inp row pos') = true) /\
    (min = (0, Weak) -> ended = true).
Proof.
  intros Hwf. induction fuel as [|fuel IH]; intros pos lhs Hf Hp Hs Hn C; [lia|]. cbn [pratt_loop].
  destruct (at_end (inp row pos)) eqn:Ee.
  { exists true, lhs, pos. repeat split; auto. intros _. unfold is_at_end. now rewrite Ee. }
  assert (Hlt : pos < length row).
  { destruct (Nat.eq_dec pos (length row)) as [->|]; [|lia]. unfold at_end, inp in Ee. cbn [snd] in Ee. rewrite skipn_all in Ee. discriminate. }
  assert (Next : forall ended p2 n, pos < p2 <= length row -> gtree P row s p2 n -> (ended = true -> is_at_end e (inp row p2) = true) ->
    exists ended' n' pos',
      (if ended : bool then Ok (true, n, inp row p2) else pratt_loop g rec fuel min e n (inp row p2)) = Ok ((ended', n'), inp row pos') /\
      (if ended : bool then Ok (true, n, inp row p2) else pratt_loop g rec' fuel min e n (inp row p2)) = Ok ((ended', n'), inp row pos') /\
    pos <= pos' <= length row /\ gtree P row s pos' n' /\
    (ended' = true -> is_at_end e (inp row pos') = true) /\
    (min = (0, Weak) -> ended' = true)).
  { intros ended p2 n Hp2 C2 He. destruct ended.
    - exists true, n, p2. repeat split; auto; lia.
    - pose proof (@size_skipn row pos p2 Hp2). destruct (IH p2 n) as (en&n'&p3&E3&E3'&Hp3&C3&He3&Hm3); auto; try lia.
      exists en, n', p3. split; [exact E3|]. split; [exact E3'|]. split; [lia|]. split; [exact C3|]. split; [exact He3|exact Hm3]. }
  assert (Stop : forall bp, power_ltb (strength_left bp) min = true -> exists ended n pos',
      Ok (false, lhs, inp row pos) = Ok ((ended, n), inp row pos') /\ Ok (false, lhs, inp row pos) = Ok ((ended, n), inp row pos') /\
    pos <= pos' <= length row /\ gtree P row s pos' n /\
    (ended = true -> is_at_end e (inp row pos') = true) /\
    (min = (0, Weak) -> ended = true)).
  { intros bp Hb. exists false, lhs, pos. split; [reflexivity|]. split; [reflexivity|]. split; [lia|]. split; [exact C|]. split; [discriminate|]. intros ->. now rewrite power_ltb_0 in Hb. }
  pose proof (parse_infix_ok Hwf Hp Hs) as (o1&P1&P1'&H1). rewrite P1, P1'. cbn [bind].
  destruct o1 as [[[value op] i1]|].
  { destruct H1 as (p1&->&Hp1&C1). unfold node_ok in C1. cbn [fst] in C1.
    destruct (power_ltb _ min) eqn:Eb; [eapply Stop; eauto|].
    destruct (@R row p1 (strength_right (op_power op)) e) as (ended&rhs&p2&E2&E2'&Hp2&C2&He&_&_); auto; [lia|pose proof (@size_skipn row pos p1); lia|].
    rewrite E2, E2'. cbn [bind]. destruct (build_infix_ok (op_name op) C C1 C2) as (n&En&C'). rewrite En. cbn [bind]. apply Next; auto. lia. }
  pose proof (parse_postfix_ok Hwf Hp Hs) as (o2&P2&P2'&H2). rewrite P2, P2'. cbn [bind].
  destruct o2 as [[[value op] i1]|].
  { destruct H2 as (p1&->&Hp1&C1). unfold node_ok in C1. cbn [fst] in C1.
    destruct (power_ltb _ min) eqn:Eb; [eapply Stop; eauto|].
    destruct (build_postfix_ok (op_name op) C C1) as (n&En&C'). rewrite En. cbn [bind]. apply (Next false); auto. discriminate. }
  assert (Hs' : row_size (skipn pos row) < f).
  { destruct Hn as [?|[[x Ex]|[x Ex]]]; [auto|congruence|congruence]. }
  destruct (can_parse_ok (parse_prefix_ok Hwf Hp Hs)) as (o3&P3&P3'&P3'').
  destruct (can_parse_ok (parse_atom_ok Hwf Hp Hs)) as (o4&P4&P4'&P4'').
  rewrite P3', P3'', P4', P4''. unfold or_else. cbn [bind].
  assert (B : (if is_some o3 then Ok true else Ok (is_some o4)) = Ok (is_some o3 || is_some o4)) by now destruct o3.
  rewrite !B. cbn [bind]. destruct (is_some o3 || is_some o4) eqn:Eo.
  { destruct (power_ltb (strength_left missing_operator_power) min) eqn:Eb; [eapply Stop; eauto|].
    destruct (@R row pos (strength_right missing_operator_power) e) as (ended&rhs&p2&E2&E2'&Hp2&C2&He&_&Hst); auto.
    rewrite E2, E2'. cbn [bind]. destruct (missing_operator_ok C C2) as (n&En&C'). rewrite En. cbn [bind]. apply Next; auto. split; [|lia].
    apply Hst. destruct o3; [left; eauto|]. destruct o4; [right; eauto|discriminate]. }
  destruct o3; [discriminate|]. destruct o4; [discriminate|].
  destruct (is_at_end e (inp row pos)) eqn:Ee'.
  { exists true, lhs, pos. repeat split; auto. }
  destruct (parse_unknown_ok e Hwf Hlt Hs P3 P4 P1 P2) as (rhs&p1&E1&E1'&Hp1&C1). rewrite E1, E1'. cbn [bind].
  destruct (missing_operator_ok C C1) as (n&En&C'). rewrite En. cbn [bind]. apply (Next false); auto. discriminate.
Qed.
Lemma pratt_step_ok row pos min e : wf_row row -> pos <= length row -> row_size (skipn pos row) <= f ->
  exists ended n pos', pratt_step g rec min e (inp row pos) = Ok ((ended, n), inp row pos') /\ pratt_step g rec' min e (inp row pos) = Ok ((ended, n), inp row pos') /\
    pos <= pos' <= length row /\ gtree P row pos pos' n /\
    (ended = true -> is_at_end e (inp row pos') = true) /\
    (min = (0, Weak) -> ended = true) /\
    (starts rec (inp row pos) -> pos < pos').
Proof.
  intros Hwf Hp Hs. unfold pratt_step. destruct (pratt_first_ok e Hwf Hp Hs) as (ended&n&p1&E&E'&Hp1&C&He&Hn&Hst).
  rewrite E, E'. cbn [bind]. destruct ended.
  - exists true, n, p1. repeat split; auto; try lia.
  - destruct (@pratt_loop_ok row pos min e Hwf (S (length (snd (inp row p1)))) p1 n) as (en&n'&p2&E2&E2'&Hp2&C2&He2&Hm2); auto.
    + cbn [inp snd]. rewrite skipn_length. lia.
    + lia.
    + eapply smaller; [|exact Hs]. lia.
    + destruct (Hn eq_refl) as [?|?]; [left|now right]. pose proof (@size_skipn row pos p1). lia.
    + rewrite E2, E2'. exists en, n', p2. repeat split; auto; try lia. intros X. specialize (Hst X). lia.
Qed.
End Step.

(** ** All depths *)
Lemma parse_rows f cell n : row_size cell < f -> parse_row_with (pratt_parse g f) cell = Ok n -> P cell n.
Proof. intros H E. exists f. auto. Qed.
Lemma pratt_parse_ok f : forall f', f <= f' -> rec_ok f (pratt_parse g f) (pratt_parse g f').
Proof.
  induction f as [|f IH]; intros f' Hf row pos min e Hwf Hp Hs; [lia|].
  destruct f' as [|f']; [lia|]. cbn [pratt_parse].
  destruct (pratt_step_ok (IH f' ltac:(lia)) (@parse_rows f) (pos := pos) (row := row) min e) as (ended&n&p'&E&E'&Hp'&C&He&Hm&Hst); auto; [lia|].
  exists ended, n, p'. repeat split; auto; try lia. intros X. apply Hst.
  assert (Hs' : row_size (skipn pos row) <= f) by lia.
  destruct X as [[x Ex]|[x Ex]]; [left|right]; exists x; rewrite <- Ex.
  - destruct (parse_prefix_ok (IH (S f) ltac:(lia)) (@parse_rows f) Hwf Hp Hs') as (o&->&E2&_). now rewrite <- E2.
  - destruct (parse_atom_ok (IH (S f) ltac:(lia)) (@parse_rows f) Hwf Hp Hs') as (o&->&E2&_). now rewrite <- E2.
Qed.
(** More fuel does not change anything. *)
Lemma parse_fuel doc k : wf_row doc -> row_size doc < k -> parse_row_with (pratt_parse g k) doc = parse g doc.
Proof.
  intros Hwf Hk. destruct (parse_row_ok (@pratt_parse_ok (S (row_size doc)) k ltac:(lia)) Hwf) as (n&E&E'&C); [lia|]. unfold parse. congruence.
Qed.
Lemma parse_gtree doc : wf_row doc -> exists n, parse g doc = Ok n /\ gtree P doc 0 (length doc) n.
Proof.
  intros Hwf. destruct (parse_row_ok (pratt_parse_ok (Nat.le_refl (S (row_size doc)))) Hwf) as (n&E&_&C); [lia|]. exists n. auto.
Qed.
Lemma P_parse cell n : wf_row cell -> P cell n -> parse g cell = Ok n.
Proof. intros Hwf (k&Hk&E). now rewrite (parse_fuel Hwf Hk) in E. Qed.
Theorem parse_covers doc : wf_row doc -> exists n, parse g doc = Ok n /\ covers doc 0 (length doc) n.
Proof.
  remember (row_size doc) as k eqn:Ek. revert doc Ek. induction k as [k IH] using lt_wf_ind. intros doc -> Hwf.
  destruct (parse_gtree Hwf) as (n&E&C). exists n. split; [exact E|].
  eapply (proj1 (gtree_covers (P := P) (row0 := doc) _)); [exact C|reflexivity].
  Unshelve. intros j v cells w En cell n' Hin HP. pose proof (wf_row_nth Hwf En) as Hn.
  apply wf_container_inv in Hn as (_&_&_&Hc). assert (Hwc : wf_row cell) by (apply Hc; exact Hin).
  pose proof (@size_cell doc j v (mkGrid cells w) cell En Hin).
  assert (row_size (skipn j doc) <= row_size doc).
  { destruct j as [|j]; [reflexivity|]. pose proof (nth_error_Some_lt En). pose proof (@size_skipn doc 0 (S j)) as Hj. cbn [skipn] in Hj. cbn [skipn]. lia. }
  destruct (IH (row_size cell) ltac:(lia) cell eq_refl Hwc) as (m&Em&Cm).
  rewrite (P_parse Hwc HP) in Em. now inv Em.
Qed.
End Total.
