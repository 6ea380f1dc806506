(** Rendering the trees of the parser. *)
From Coq Require Import String.
From Verif Require Import Base Str Grid Node Focus Autocomplete Spec NameMap Syntax Pratt Grammar Render SpecSyntax SpecPratt SpecRender BaseFacts TreeFacts ParseFacts ParseTotal GrammarFacts ShapeFacts.
Open Scope list_scope.
Open Scope nat_scope.
Set Implicit Arguments.
Unset Strict Implicit.

Lemma everywhere_here (P : InputRow -> Prop) doc : everywhere P doc -> P doc.
Proof. intros H. now apply (H []). Qed.
Lemma everywhere_cell P doc k v cells w cell : everywhere P doc -> nth_error doc k = Some (Container v (mkGrid cells w)) -> In cell cells -> everywhere P cell.
Proof. intros H Ek Hc p row Ep. apply In_nth_error in Hc as [j Ej]. apply (H ((k, j) :: p)). cbn [row_get]. rewrite Ek. cbn [gvalues]. now rewrite Ej. Qed.
Lemma everywhere_intro (P : InputRow -> Prop) doc : P doc -> (forall k v cells w cell, nth_error doc k = Some (Container v (mkGrid cells w)) -> In cell cells -> everywhere P cell) -> everywhere P doc.
Proof.
  intros H Hc [|[k j] p] row E; cbn in E; [now inv E|]. destruct (nth_error doc k) as [[v [cells w]|]|] eqn:Ek; try discriminate. cbn in E.
  destruct (nth_error cells j) as [cell|] eqn:Ej; [|discriminate]. eapply Hc; eauto. eapply nth_error_In; eauto.
Qed.
Lemma everywhere_and P Q doc : everywhere P doc -> everywhere Q doc -> everywhere (fun r => P r /\ Q r) doc.
Proof. intros HP HQ p row E. split; eauto. Qed.
Lemma everywhere_imp (P Q : InputRow -> Prop) doc : (forall r, P r -> Q r) -> everywhere P doc -> everywhere Q doc.
Proof. intros H HP p row E. eauto. Qed.
Definition nonempty_grids (row : InputRow) : Prop := forall k v c, nth_error row k = Some (Container v c) -> gvalues c <> [].
Lemma wf_nonempty doc : wf_row doc -> everywhere nonempty_grids doc.
Proof.
  intros H p row E k v [cells w] Ek. pose proof (row_get_wf H E) as Hr. pose proof (wf_row_nth Hr Ek) as Hn. apply wf_container_inv in Hn as (_&Hc&_). exact Hc.
Qed.

Section Node.
Variable rs : Renderers.
(** One step of [render] *)
Definition render_children (c : SyntaxNodeChildren) (o : Options) : Res (list Element) :=
  match c with Children l => mapi_res (fun _ c => render rs c None o) 0 l | NewRows _ | Leaf _ _ => throw end.
Definition render_rows (c : SyntaxNodeChildren) (s : nat) : Res (list Element) :=
  match c with NewRows (mkGrid l _) => mapi_res (fun j c => render rs c (Some (s, j)) no_options) 0 l | Children _ | Leaf _ _ => throw end.
Definition simple_container (n : SyntaxNode) (ri : option RowIndex) (tag : Tag) (o : Options) : Res Element :=
  l <- render_children (syn_children n) o ;;
  _ <- assert_ (0 <? List.length l) ;;
  _ <- assert_ (right_number tag (List.length l)) ;;
  Ok (mkElement (SimpleContainer tag) n ri l).
Definition rows_container (n : SyntaxNode) (class : ElementClass) (tag : Tag) (ri : option RowIndex) : Res Element :=
  _ <- assert_ (S (fst (syn_range n)) =? snd (syn_range n)) ;;
  l <- render_rows (syn_children n) (fst (syn_range n)) ;;
  _ <- assert_ (0 <? List.length l) ;;
  _ <- assert_ (right_number tag (List.length l)) ;;
  Ok (mkElement class n ri l).
Definition render_node (n : SyntaxNode) (ri : option RowIndex) (o : Options) : Res Element :=
  let (s, e) := syn_range n in
  match get_renderer rs (syn_name n) with
  | None => throw
  | Some RenderNothing => match syn_children n with Children [] => _ <- assert_ (s =? e) ;; Ok (mkElement NothingElement n ri []) | _ => throw end
  | Some RenderMissing => match syn_children n with Children [] => _ <- assert_ (s =? e) ;; Ok (mkElement MissingElement n ri []) | _ => throw end
  | Some (RenderText tag) => match syn_children n with Leaf _ _ => Ok (mkElement (TextElement tag) n ri []) | _ => throw end
  | Some RenderWhitespaces => simple_container n ri Tmrow o
  | Some RenderOperator =>
      match syn_children n with
      | Leaf _ _ => Ok (mkElement (SymbolElement Tmo (opt_stretchy o)) n ri [])
      | Children _ => simple_container n ri Tmrow no_options
      | NewRows _ => match opt_override o with Some ri => rows_container n (RowsContainer Tmrow) Tmrow ri | None => throw end
      end
  | Some (RenderRows tag) => rows_container n (RowsContainer tag) tag ri
  | Some (RenderScript tag) =>
      match syn_children n with
      | Children l => _ <- assert_ (is_new_rows (nth_error l 1)) ;; simple_container n ri tag (mkOptions false (Some ri))
      | _ => throw
      end
  | Some RenderRoot => rows_container n RootElement Tmroot ri
  | Some RenderTable =>
      match syn_children n with
      | NewRows (mkGrid l w) =>
          _ <- assert_ (0 <? List.length l) ;;
          _ <- (if w =? 0 then Panic PFuel else assert_ ((List.length l + (w - 1)) / w =? List.length l / w)) ;;
          rows_container n TableElement Tmtable ri
      | _ => throw
      end
  | Some (RenderSimple stretchy) => simple_container n ri Tmrow (mkOptions stretchy None)
  end.
Lemma render_eq n ri o : render rs n ri o = render_node n ri o.
Proof. destruct n as [name c s e]. destruct c as [[l w]|l|ty l]; reflexivity. Qed.

(** ** The grammar and the renderers *)
Definition is_leaf_token (t : TokenParser) : Prop := match t with TSymbols _ _ | TNumber | TVariable | TString => True | _ => False end.
Definition is_bracket_token (t : TokenParser) : Prop := match t with TBrackets _ _ | TEmptyBrackets _ _ => True | _ => False end.
Definition not_container (t : TokenParser) : Prop := match t with TContainer _ => False | _ => True end.
Definition container_renderer (v : InputNodeVariant) (r : option Renderer) : Prop :=
  match v, r with
  | Fraction, Some (RenderRows Tmfrac) | RootV, Some RenderRoot | Table, Some RenderTable => True
  | _, _ => False
  end.
Definition script_renderer (r : option Renderer) : Prop := r = Some (RenderScript Tmsub) \/ r = Some (RenderScript Tmsup).
(** The symbol opens a pair of brackets. *)
Definition opens (g : Grammar) (x : str) : Prop := exists r b, In r (g_rules g) /\ rule_token r = Some (TBrackets x b).
Record fits (g : Grammar) : Prop := {
  fit_open : forall x, opens g x -> x <> space;
  fit_operator : get_renderer rs operator_rule_name = Some RenderOperator;
  fit_whitespaces : get_renderer rs whitespaces_rule_name = Some RenderWhitespaces;
  fit_whitespace : get_renderer rs whitespace_rule_name = Some (RenderText Tmspace);
  fit_sub : get_renderer rs sub_rule_name = Some (RenderScript Tmsub);
  fit_sup : get_renderer rs sup_rule_name = Some (RenderScript Tmsup);
  fit_missing : get_renderer rs error_missing_token_name = Some RenderMissing;
  fit_unknown : get_renderer rs error_unknown_token_name = Some (RenderText Tmerror);
  fit_juxt : get_renderer rs error_missing_operator_name = Some (RenderSimple false);
  fit_rules : forall r, In r (g_rules g) ->
    match r with
    | NameOnly _ => True
    | RAtom name t =>
        match t with
        | TContainer v => container_renderer v (get_renderer rs name)
        | TBrackets _ _ | TEmptyBrackets _ _ => get_renderer rs name = Some (RenderSimple true)
        | _ => exists tag, get_renderer rs name = Some (RenderText tag)
        end
    | RPrefix name _ t | RLeftInfix name _ t | RRightInfix name _ t => not_container t /\ get_renderer rs name = Some (RenderSimple false)
    | RPostfix name _ t =>
        match t with
        | TContainer v => (v = Sub \/ v = Sup) /\ script_renderer (get_renderer rs name)
        | _ => get_renderer rs name = Some (RenderSimple false)
        end
    end }.

(** ** Rendering succeeds *)
Definition renders (n : SyntaxNode) : Prop := forall ri o, exists x, render rs n ri o = Ok x.
Lemma mapi_ok A B (f : nat -> A -> Res B) l : Forall (fun a => forall k, exists b, f k a = Ok b) l -> forall k, exists bs, mapi_res f k l = Ok bs /\ List.length bs = List.length l.
Proof.
  induction 1 as [|a l Ha Hl IH]; intros k; cbn [mapi_res]; [eauto|]. destruct (Ha k) as [b ->]. cbn [bind]. destruct (IH (S k)) as (bs&->&L). cbn. eexists. split; [reflexivity|].
  cbn. now rewrite L.
Qed.
Lemma children_ok l o : Forall renders l -> exists xs, render_children (Children l) o = Ok xs /\ List.length xs = List.length l.
Proof. intros H. apply mapi_ok. eapply Forall_impl; [|exact H]. intros a Ha k. apply Ha. Qed.
Lemma rows_ok l w s : Forall renders l -> exists xs, render_rows (NewRows (mkGrid l w)) s = Ok xs /\ List.length xs = List.length l.
Proof. intros H. apply mapi_ok. eapply Forall_impl; [|exact H]. intros a Ha k. apply Ha. Qed.
Lemma simple_ok name l s e ri tag o : Forall renders l -> 0 < List.length l -> right_number tag (List.length l) = true ->
  exists x, simple_container (mkSyntax name (Children l) s e) ri tag o = Ok x.
Proof.
  intros H Hl Ht. unfold simple_container. cbn [syn_children]. destruct (children_ok o H) as (xs&->&L). cbn [bind]. rewrite L, Ht.
  destruct (Nat.ltb_spec 0 (List.length l)); [|lia]. cbn. eauto.
Qed.
Lemma rows_container_ok name l w s class tag ri : Forall renders l -> 0 < List.length l -> right_number tag (List.length l) = true ->
  exists x, rows_container (mkSyntax name (NewRows (mkGrid l w)) s (S s)) class tag ri = Ok x.
Proof.
  intros H Hl Ht. unfold rows_container. cbn [syn_children syn_range fst snd]. rewrite Nat.eqb_refl. cbn [assert_ bind]. destruct (rows_ok w s H) as (xs&->&L). cbn [bind]. rewrite L, Ht.
  destruct (Nat.ltb_spec 0 (List.length l)); [|lia]. cbn. eauto.
Qed.
Lemma renders_simple name l s e b : get_renderer rs name = Some (RenderSimple b) -> Forall renders l -> 0 < List.length l -> renders (mkSyntax name (Children l) s e).
Proof. intros Hn H Hl ri o. rewrite render_eq. unfold render_node. cbn [syn_name syn_range]. rewrite Hn. now apply simple_ok. Qed.
Lemma renders_text name ty symbols s e tag : get_renderer rs name = Some (RenderText tag) -> renders (mkSyntax name (Leaf ty symbols) s e).
Proof. intros Hn ri o. rewrite render_eq. unfold render_node. cbn [syn_name syn_range syn_children]. rewrite Hn. eauto. Qed.

Variable g : Grammar.
Hypothesis F : fits g.
Lemma renders_missing p : renders (missing_at p).
Proof. intros ri o. rewrite render_eq. unfold render_node, missing_at. cbn [syn_name syn_range syn_children]. rewrite (fit_missing F), Nat.eqb_refl. cbn. eauto. Qed.
Lemma renders_op_leaf ty l s e : renders (mkSyntax operator_rule_name (Leaf ty l) s e).
Proof. intros ri o. rewrite render_eq. unfold render_node. cbn [syn_name syn_range syn_children]. rewrite (fit_operator F). eauto. Qed.
Lemma renders_op_children l s e : Forall renders l -> 0 < List.length l -> renders (mkSyntax operator_rule_name (Children l) s e).
Proof. intros H Hl ri o. rewrite render_eq. unfold render_node. cbn [syn_name syn_range syn_children]. rewrite (fit_operator F). now apply simple_ok. Qed.
Lemma renders_wrap before n after s e : renders n -> (forall m, before = Some m -> renders m) -> (forall m, after = Some m -> renders m) -> renders (wrap before n after s e).
Proof.
  intros Hn Hb Ha. unfold wrap. destruct before as [b|], after as [a|]; auto; intros ri o; rewrite render_eq; unfold render_node; cbn [syn_name syn_range syn_children];
    rewrite (fit_whitespaces F); apply simple_ok; auto; cbn; try lia; repeat constructor; auto.
Qed.
Lemma spaces_render row s e o m : spaces row s e o -> o = Some m -> renders m.
Proof. intros H ->. inv H. unfold space_leaf. eapply renders_text, (fit_whitespace F). Qed.

Definition content (t : TokenParser) (s e : nat) (c : SyntaxNodeChildren) : Prop :=
  match c with
  | Leaf _ _ => is_leaf_token t
  | Children l => is_bracket_token t /\ 0 < List.length l /\ Forall renders l
  | NewRows (mkGrid l w) => exists v, t = TContainer v /\ e = S s /\ 0 < w /\ List.length l mod w = 0 /\ 0 < List.length l /\
      (v = Fraction \/ v = RootV -> List.length l = 2) /\ Forall renders l
  end.
Definition inside (row : InputRow) (s e : nat) (name : PathIdentifier) (t : TokenParser) (n : SyntaxNode) : Prop :=
  exists a b c before after, n = wrap before (mkSyntax name c a b) after s e /\ spaces row s a before /\ spaces row b e after /\ content t a b c /\
    (forall v, t = TContainer v -> exists d, nth_error row a = Some (Container v d)).
Lemma inside_atom row s e name t n : In (RAtom name t) (g_rules g) -> inside row s e name t n -> renders n.
Proof.
  intros Hr (a&b&c&before&after&->&Sb&Sa&C&_). apply renders_wrap; [|intros m; now apply spaces_render with (1 := Sb)|intros m; now apply spaces_render with (1 := Sa)].
  apply (fit_rules F) in Hr. destruct c as [[l w]|l|ty l]; cbn [content] in C.
  - destruct C as (v&->&->&Hw&Hm&Hl&Hv&H). intros ri o. rewrite render_eq. unfold render_node. cbn [syn_name syn_range syn_children].
    destruct v; cbn in Hr; destruct (get_renderer rs name) as [[| | | |[]| | | | |]|]; try easy.
    + apply rows_container_ok; auto. rewrite Hv; auto.
    + apply rows_container_ok; auto. rewrite Hv; auto.
    + assert ((0 <? List.length l) = true) as -> by (apply Nat.ltb_lt; exact Hl). assert ((w =? 0) = false) as -> by lia.
      assert ((List.length l + (w - 1)) / w = List.length l / w) as ->.
      { apply Nat.div_exact in Hm; [|lia]. rewrite Hm at 1. rewrite Nat.mul_comm, Nat.add_comm, Nat.div_add by lia. rewrite Nat.div_small by lia. lia. }
      rewrite Nat.eqb_refl. cbn [assert_ bind]. now apply rows_container_ok.
  - destruct C as (Ht&Hl&H). destruct t; try easy; now apply renders_simple with (b := true).
  - destruct t; try easy; destruct Hr as [tag Hr]; now apply renders_text with (tag := tag).
Qed.
Lemma inside_op row s e t n : not_container t -> inside row s e operator_rule_name t n -> renders n.
Proof.
  intros Ht (a&b&c&before&after&->&Sb&Sa&C&_). apply renders_wrap; [|intros m; now apply spaces_render with (1 := Sb)|intros m; now apply spaces_render with (1 := Sa)].
  destruct c as [[l w]|l|ty l]; cbn [content] in C.
  - destruct C as (v&->&_). easy.
  - destruct C as (_&Hl&H). now apply renders_op_children.
  - apply renders_op_leaf.
Qed.
(** The symbols that are always tokens on their own *)
Variable alone : str -> Prop.
Hypothesis Alone : forall x, alone x -> exists r t, In r (g_rules g) /\ rule_token r = Some t /\ forall row p, nth_error row p = Some (Symbol x) -> recognises g row p t.
Hypothesis Alone_open : forall x, alone x -> ~ opens g x.
Definition apart (row : InputRow) : Prop := no_space_after_scripts row /\ spaces_follow alone row.
(** Where a part of a tree can start with spaces *)
Definition loose (row : InputRow) (s : nat) : Prop := forall i, s = S i -> exists x, nth_error row i = Some (Symbol x) /\ (opens g x \/ unrecognised g row i).
Definition settled (row : InputRow) (s : nat) : Prop := blank row s -> loose row s.
Lemma wrapped_settled row s e name t n : wrapped g row s e name t n -> settled row e.
Proof. intros W. inv W. intros B. contradiction. Qed.
Lemma scripted_settled row s e t n : scripted g row s e t n -> settled row e.
Proof. intros W. inv W; eapply wrapped_settled; eauto. Qed.
Lemma tree_settled row s e n : tree g row s e n -> settled row s -> settled row e.
Proof.
  induction 1; intros S; eauto using wrapped_settled, scripted_settled. intros _ i E. inv E. eauto.
Qed.
Lemma run_start row k : is_space row k -> exists j, spaces_before row j (S k).
Proof.
  induction k as [|k IH]; intros H.
  - exists 0. split; [lia|]. split; [|discriminate]. intros i Hi. now replace i with 0 by lia.
  - assert (D : is_space row k \/ ~ is_space row k).
    { unfold is_space. destruct (nth_error row k) as [[v c|x]|]; try (right; discriminate). destruct (list_eq_dec N.eq_dec x [32%N]) as [->|]; [now left|right; congruence]. }
    destruct D as [D|D].
    + destruct (IH D) as (j&L&A&B). exists j. split; [lia|]. split; [|exact B]. intros i Hi. destruct (Nat.eq_dec i (S k)) as [->|]; [exact H|apply A; lia].
    + exists (S k). split; [lia|]. split; [intros i Hi; now replace i with (S k) by lia|]. intros i E. inv E. exact D.
Qed.
Lemma script_bare row s a before r v : apart row -> settled row s -> In r (g_rules g) -> rule_token r = Some (TContainer v) -> (v = Sub \/ v = Sup) ->
  spaces row s a before -> (exists d, nth_error row a = Some (Container v d)) -> before = None.
Proof.
  intros [_ A] S Hr Ht Hv Sb (d&Ed). inv Sb; [reflexivity|]. exfalso. assert (B : blank row s) by (apply H0; lia). specialize (S B).
  assert (Hs : is_script row a) by (exists v, d; auto). assert (Ha : ~ blank row a) by (unfold blank; congruence).
  assert (R : spaces_before row s a).
  { split; [exact H|]. split; [exact H0|]. intros i -> Bi. destruct (S i eq_refl) as (x&Ex&[O|U]).
    - apply (fit_open F O). unfold is_space in Bi. rewrite Ex in Bi. now inv Bi.
    - apply (U r (TContainer v) a (Some (space_leaf i a)) Hr Ht); [|exact Ha|exists d; exact Ed]. constructor; [lia|]. intros k Hk. destruct (Nat.eq_dec k i) as [->|]; [exact Bi|apply H0; lia]. }
  destruct (A s a Hs R) as (i&->&[(v'&c&E)|(x&E&X)]); destruct (S i eq_refl) as (y&Ey&C); rewrite Ey in E; inv E. destruct C as [O|U]; [exact (Alone_open X O)|].
  destruct (Alone X) as (r'&t&Hr'&Ht'&Hx). apply (U r' t i None Hr' Ht'); [constructor| |auto]. destruct R as (_&_&R). exact (R i eq_refl).
Qed.
Lemma inside_script row s e name v n lhs s0 e0 : no_space_after_scripts row -> (forall a before, spaces row s a before -> (exists d, nth_error row a = Some (Container v d)) -> before = None) -> (v = Sub \/ v = Sup) -> script_renderer (get_renderer rs name) -> renders lhs ->
  inside row s e operator_rule_name (TContainer v) n -> renders (mkSyntax name (Children [lhs; n]) s0 e0).
Proof.
  intros A1 A2 Hv Hn Hl (a&b&c&before&after&->&Sb&Sa&C&Hc). destruct (Hc v eq_refl) as (d&Ed). assert (Hs : is_script row a) by (exists v, d; auto).
  destruct c as [[l w]|l|ty l]; cbn [content] in C; try (now destruct C). destruct C as (v'&E&->&_&_&Hlen&_&H). inv E.
  assert (before = None) as -> by eauto.
  assert (after = None) as ->.
  { inv Sa; [reflexivity|]. exfalso. apply (A1 a Hs). apply (H1 (S a)). lia. }
  cbn [wrap]. intros ri o. rewrite render_eq. unfold render_node. cbn [syn_name syn_range syn_children nth_error is_new_rows].
  assert (K : forall tag, right_number tag 2 = true -> exists x, simple_container (mkSyntax name (Children [lhs; mkSyntax operator_rule_name (NewRows (mkGrid l w)) a (S a)]) s0 e0) ri tag (mkOptions false (Some ri)) = Ok x).
  { intros tag Ht. unfold simple_container. cbn [syn_children render_children mapi_res]. destruct (Hl None (mkOptions false (Some ri))) as (x&->). cbn [bind].
    rewrite render_eq. unfold render_node. cbn [syn_name syn_range syn_children opt_override]. rewrite (fit_operator F).
    destruct (rows_container_ok operator_rule_name w a (RowsContainer Tmrow) ri H Hlen (eq_refl : right_number Tmrow (List.length l) = true)) as (y&->).
    cbn. rewrite Ht. cbn. eauto. }
  destruct Hn as [-> | ->]; cbn [assert_ bind]; now apply K.
Qed.
Definition fine (row : InputRow) : Prop := nonempty_grids row /\ two_cells row /\ apart row.
Lemma op_rule sel op : In op (g_ops sel g) -> exists r, In r (g_rules g) /\ sel r = Some op.
Proof. apply ops_in. Qed.
(** A token of a rule, or of a script after an operator *)
Definition usable (t : TokenParser) : Prop := match t with TContainer _ => True | _ => exists r, In r (g_rules g) /\ rule_token r = Some t end.
Lemma rule_usable r t : In r (g_rules g) -> rule_token r = Some t -> usable t.
Proof. intros H E. destruct t; try exact I; exists r; auto. Qed.
Theorem tree_renders :
  (forall row s e n, tree g row s e n -> everywhere fine row -> settled row s -> renders n) /\
  (forall row s e t c, token g row s e t c -> everywhere fine row -> usable t -> content t s e c /\ (forall v, t = TContainer v -> exists d, nth_error row s = Some (Container v d))) /\
  (forall row s e name t n, wrapped g row s e name t n -> everywhere fine row -> usable t -> inside row s e name t n) /\
  (forall row s e t n, scripted g row s e t n -> everywhere fine row -> usable t -> not_container t -> renders n) /\
  (forall cells nodes, cells_tree g cells nodes -> (forall cell, In cell cells -> everywhere fine cell) -> Forall renders nodes).
Proof.
  apply tree_mutind.
  - intros. apply renders_missing.
  - intros row s m e a b Ta IHa _ IHb H S. apply renders_simple with (b := false); [apply (fit_juxt F)| |cbn; lia]. repeat constructor; auto; [apply renders_missing|]. apply IHb; auto. now apply (tree_settled Ta).
  - intros row s x _ _ _ _. eapply renders_text. apply (fit_unknown F).
  - intros row s m e op v a Hop Tv IHv _ IHa H S. apply op_rule in Hop as (r&Hr&E). destruct r; inv E. pose proof (rule_usable Hr eq_refl) as U. apply (fit_rules F) in Hr as [Hc Hn]. cbn [op_token op_name] in *.
    apply scripted_settled in Tv. apply renders_simple with (b := false); auto; cbn; try lia; repeat constructor; auto.
  - intros row s m k e op a v b Hop _ IHa Tv IHv _ IHb H S. apply scripted_settled in Tv.
    apply op_rule in Hop as (r&Hr&E). destruct r; inv E; pose proof (rule_usable Hr eq_refl) as U; apply (fit_rules F) in Hr as [Hc Hn]; cbn [op_token op_name] in *;
      (apply renders_simple with (b := false); auto; cbn; try lia; repeat constructor; auto).
  - intros row s m e op a v Hop Ta IHa _ IHv H S. apply op_rule in Hop as (r&Hr&E). destruct r; inv E. pose proof (rule_usable Hr eq_refl) as U. pose proof Hr as Hr'. apply (fit_rules F) in Hr. cbn [op_token op_name] in *.
    assert (K : not_container t -> get_renderer rs name = Some (RenderSimple false) -> renders (mkSyntax name (Children [a; v]) s e)).
    { intros Hc Hn. apply renders_simple with (b := false); auto; cbn; try lia; repeat constructor; auto. eapply inside_op; eauto. }
    destruct t; try (now apply K). destruct Hr as [Hv Hr]. destruct (everywhere_here H) as (_&_&A). pose proof (tree_settled Ta S) as Sm.
    eapply inside_script; [apply A| |exact Hv|exact Hr|auto|auto]. intros a0 before Sb Hd. exact (script_bare A Sm Hr' eq_refl Hv Sb Hd).
  - intros row s e name t n Hr _ IH H _. apply atoms_in in Hr. pose proof (rule_usable Hr eq_refl) as U. eapply inside_atom; eauto.
  - intros row s e t ty symbols l Hl _ _ _ _ _ _ _ _. split; [destruct t; easy|]. intros v ->. easy.
  - intros row s v cells w nodes En Hw Hm Hc IH H _. split; [|intros v' E; inv E; eauto]. cbn [content]. exists v. pose proof (cells_tree_length Hc) as L. destruct (everywhere_here H) as (H1&H2&_).
    repeat split; auto.
    + apply H1 in En. cbn in En. rewrite L. destruct cells; [congruence|cbn; lia].
    + intros Hv. rewrite L. now apply (H2 _ _ _ En).
    + apply IH. intros cell Hin. eapply everywhere_cell; eauto.
  - intros row s m a b c Ea _ IH _ H (r&Hr&Ht). split; [|discriminate]. cbn. repeat split; try lia. repeat constructor; auto; try apply renders_op_leaf.
    apply IH; [exact H|]. intros _ i E. inv E. exists a. split; [exact Ea|]. left. exists r, b. auto.
  - intros row s a b _ _ _ _. split; [|discriminate]. cbn. repeat split; try lia. repeat constructor; auto; apply renders_op_leaf.
  - intros row s a b e name t c before after Sb _ IH Sa _ H U. destruct (IH H U) as [C Hc]. exists a, b, c, before, after. auto.
  - intros row s e t n _ IH H U Ht. eapply inside_op; eauto.
  - intros row s m e t n v name op Hv Tn IHn _ IHo H U Ht. destruct (everywhere_here H) as (_&_&A).
    assert (Hv' : v = Sub \/ v = Sup) by (destruct Hv as [[-> _]|[-> _]]; auto).
    assert (Hn : script_renderer (get_renderer rs name)) by (destruct Hv as [[_ ->]|[_ ->]]; [left; apply (fit_sub F)|right; apply (fit_sup F)]).
    eapply inside_script; [apply A| |exact Hv'|exact Hn|auto|apply IHo; [exact H|exact I]]. intros a before Sb _. inv Sb; [reflexivity|].
    exfalso. inv Tn; match goal with W : wrapped _ _ _ _ _ _ _ |- _ => inv W end; match goal with X : ~ blank _ m |- _ => apply X; apply H1; lia end.
  - constructor.
  - intros cell cells n nodes _ IHn _ IHc H. constructor; [apply IHn; [apply H; now left|intros _ i E; discriminate E]|apply IHc; intros c Hc; apply H; now right].
Qed.

(** ** What a rendered tree tells *)
Definition rendered (n : SyntaxNode) : Prop := exists ri o x, render rs n ri o = Ok x.
Lemma mapi_inv A B (f : nat -> A -> Res B) l : forall k bs, mapi_res f k l = Ok bs -> Forall (fun a => exists k b, f k a = Ok b) l /\ List.length bs = List.length l.
Proof.
  induction l as [|a l IH]; intros k bs H; cbn [mapi_res] in H; [inv H; auto|]. apply bind_ok in H as (b&Eb&H). apply bind_ok in H as (r&Er&H). inv H.
  apply IH in Er as [Hl L]. split; [constructor; eauto|cbn; now rewrite L].
Qed.
Lemma assert_inv b x : assert_ b = Ok x -> b = true.
Proof. destruct b; [auto|discriminate]. Qed.
Lemma simple_inv n ri tag o x : simple_container n ri tag o = Ok x -> exists l, syn_children n = Children l /\ Forall rendered l /\ right_number tag (List.length l) = true.
Proof.
  unfold simple_container. intros H. apply bind_ok in H as (xs&Ex&H). unfold render_children in Ex. destruct (syn_children n) as [|l|] eqn:E; try discriminate.
  apply mapi_inv in Ex as [Hl L]. apply bind_ok in H as (?&_&H). apply bind_ok in H as (?&Hr&_). apply assert_inv in Hr. exists l. repeat split; [|congruence].
  eapply Forall_impl; [|exact Hl]. intros a (k&b&E'). exists None, o, b. exact E'.
Qed.
Lemma rows_inv n class tag ri x : rows_container n class tag ri = Ok x -> exists l w, syn_children n = NewRows (mkGrid l w) /\ Forall rendered l /\ right_number tag (List.length l) = true.
Proof.
  unfold rows_container. intros H. apply bind_ok in H as (?&_&H). apply bind_ok in H as (xs&Ex&H). unfold render_rows in Ex. destruct (syn_children n) as [[l w]| |] eqn:E; try discriminate.
  apply mapi_inv in Ex as [Hl L]. apply bind_ok in H as (?&_&H). apply bind_ok in H as (?&Hr&_). apply assert_inv in Hr. exists l, w. repeat split; [|congruence].
  eapply Forall_impl; [|exact Hl]. intros a (k&b&E'). exists (Some (fst (syn_range n), k)), no_options, b. exact E'.
Qed.
Lemma rendered_simple name l s e b : get_renderer rs name = Some (RenderSimple b) -> rendered (mkSyntax name (Children l) s e) -> Forall rendered l.
Proof.
  intros Hn (ri&o&x&H). rewrite render_eq in H. unfold render_node in H. cbn [syn_name syn_range] in H. rewrite Hn in H.
  apply simple_inv in H as (l'&E&Hl&_). cbn in E. now inv E.
Qed.
Lemma rendered_wrap before n after s e : rendered (wrap before n after s e) -> rendered n.
Proof.
  intros H. unfold wrap in H. destruct before as [b|], after as [a|]; auto; destruct H as (ri&o&x&H); rewrite render_eq in H; unfold render_node in H; cbn [syn_name syn_range] in H;
    rewrite (fit_whitespaces F) in H; apply simple_inv in H as (l&E&Hl&_); cbn in E; inv E; repeat match goal with X : Forall _ (_ :: _) |- _ => inv X end; auto.
Qed.
Definition cell_ok (row : InputRow) : Prop := two_cells row /\ no_space_after_scripts row.
(** The container at [k] *)
Definition container_ok (row : InputRow) (k : nat) : Prop :=
  forall v cells w, nth_error row k = Some (Container v (mkGrid cells w)) ->
  (v = Fraction \/ v = RootV -> List.length cells = 2) /\ (v = Sub \/ v = Sup -> ~ blank row (S k)) /\ forall cell, In cell cells -> everywhere cell_ok cell.
Definition part_ok (row : InputRow) (s e : nat) : Prop := forall k, s <= k < e -> container_ok row k.
Lemma part_ok_app row s m e : part_ok row s m -> part_ok row m e -> part_ok row s e.
Proof. intros H H' k Hk. destruct (le_lt_dec m k); [apply H'; lia|apply H; lia]. Qed.
Lemma part_ok_nil row s : part_ok row s s.
Proof. intros k Hk. lia. Qed.
Lemma spaces_ok row s e o : spaces row s e o -> part_ok row s e.
Proof. intros H. inv H; [apply part_ok_nil|]. intros k Hk v cells w E. apply H1 in Hk. unfold blank in Hk. congruence. Qed.
Lemma symbol_ok row s x : nth_error row s = Some (Symbol x) -> part_ok row s (S s).
Proof. intros H k Hk v cells w E. assert (k = s) as -> by lia. congruence. Qed.
Definition content_rendered (c : SyntaxNodeChildren) : Prop :=
  match c with Leaf _ _ => True | Children l | NewRows (mkGrid l _) => Forall rendered l end.
Definition token_ok (row : InputRow) (s e : nat) (t : TokenParser) (c : SyntaxNodeChildren) : Prop :=
  match t with
  | TContainer v => exists cells nodes w, c = NewRows (mkGrid nodes w) /\ List.length nodes = List.length cells /\ e = S s /\ nth_error row s = Some (Container v (mkGrid cells w)) /\
      (content_rendered c -> forall cell, In cell cells -> everywhere cell_ok cell)
  | TBrackets _ _ | TEmptyBrackets _ _ => exists l, c = Children l /\ (content_rendered c -> part_ok row s e)
  | _ => exists ty l, c = Leaf ty l /\ part_ok row s e
  end.
Definition opened (row : InputRow) (s e : nat) (name : PathIdentifier) (t : TokenParser) (n : SyntaxNode) : Prop :=
  exists a b c before after, n = wrap before (mkSyntax name c a b) after s e /\ spaces row s a before /\ spaces row b e after /\ ~ blank row e /\ token_ok row a b t c.
Lemma opened_part row s e name t n : opened row s e name t n -> (forall a b c before after, n = wrap before (mkSyntax name c a b) after s e -> token_ok row a b t c -> part_ok row a b) -> part_ok row s e.
Proof. intros (a&b&c&before&after&E&Sb&Sa&_&C) H. apply part_ok_app with (m := a); [eapply spaces_ok; eauto|]. apply part_ok_app with (m := b); [eauto|eapply spaces_ok; eauto]. Qed.
Lemma rendered_op row s e t n : not_container t -> opened row s e operator_rule_name t n -> rendered n -> part_ok row s e.
Proof.
  intros Ht Ho Hn. apply (opened_part Ho). intros a b c before after -> C. apply rendered_wrap in Hn.
  assert (K : forall l, c = Children l -> content_rendered c).
  { intros l ->. destruct Hn as (ri&o&x&H). rewrite render_eq in H. unfold render_node in H. cbn [syn_name syn_range syn_children] in H. rewrite (fit_operator F) in H.
    apply simple_inv in H as (l'&E&Hl&_). cbn in E. inv E. exact Hl. }
  destruct t; try easy; cbn [token_ok] in C; try (destruct C as (ty&l&_&C); exact C); destruct C as (l&->&C); eapply C, K; reflexivity.
Qed.
Lemma rendered_atom row s e name t n : In (RAtom name t) (g_rules g) -> opened row s e name t n -> rendered n -> part_ok row s e.
Proof.
  intros Hr Ho Hn. apply (opened_part Ho). intros a b c before after -> C. apply rendered_wrap in Hn. apply (fit_rules F) in Hr.
  destruct t as [l ty|v|x y|x y| | |]; cbn [token_ok] in C; try (destruct C as (ty'&l'&_&C); exact C).
  - destruct C as (cells&nodes&w&->&L&->&En&C). intros k Hk v' cells' w' E. assert (k = a) as -> by lia. rewrite En in E. inv E.
    destruct Hn as (ri&o&x&H). rewrite render_eq in H. unfold render_node in H. cbn [syn_name syn_range syn_children] in H.
    assert (K : Forall rendered nodes /\ (v' = Fraction \/ v' = RootV -> List.length nodes = 2) /\ v' <> Sub /\ v' <> Sup).
    { destruct v', (get_renderer rs name) as [[| | | |[]| | | | |]|]; try easy.
      - apply rows_inv in H as (l&w''&E&Hl&R). cbn in E. inv E. repeat split; auto; try discriminate. intros _. symmetry. now apply Nat.eqb_eq.
      - apply rows_inv in H as (l&w''&E&Hl&R). cbn in E. inv E. repeat split; auto; try discriminate. intros _. symmetry. now apply Nat.eqb_eq.
      - apply bind_ok in H as (?&_&H). apply bind_ok in H as (?&_&H). apply rows_inv in H as (l&w''&E&Hl&R). cbn in E. inv E. repeat split; auto; try discriminate. intros [|]; discriminate. }
    destruct K as (K1&K2&K3&K4).
    split; [intros Hv; rewrite <- L; auto|]. split; [intros [|]; contradiction|auto].
  - destruct C as (l&->&C). apply C. apply (rendered_simple Hr Hn).
  - destruct C as (l&->&C). apply C. apply (rendered_simple Hr Hn).
Qed.
Lemma rendered_script row s e name v n lhs s0 e0 : (v = Sub \/ v = Sup) -> script_renderer (get_renderer rs name) -> opened row s e operator_rule_name (TContainer v) n ->
  rendered (mkSyntax name (Children [lhs; n]) s0 e0) -> rendered lhs /\ part_ok row s e.
Proof.
  intros Hv Hn (a&b&c&before&after&->&Sb&Sa&Hb&C) (ri&o&x&H). rewrite render_eq in H. unfold render_node in H. cbn [syn_name syn_range syn_children] in H.
  assert (K : exists tag, (_ <- assert_ (is_new_rows (nth_error [lhs; wrap before (mkSyntax operator_rule_name c a b) after s e] 1)) ;;
    simple_container (mkSyntax name (Children [lhs; wrap before (mkSyntax operator_rule_name c a b) after s e]) s0 e0) ri tag (mkOptions false (Some ri))) = Ok x)
    by (destruct Hn as [Hn|Hn]; rewrite Hn in H; eauto). clear H. destruct K as (tag&H). apply bind_ok in H as (?&Hr&H). apply assert_inv in Hr.
  destruct C as (cells&nodes&w&->&L&->&En&C).
  assert (before = None) as -> by (destruct before; [destruct after; discriminate|reflexivity]). assert (after = None) as -> by (destruct after; [discriminate|reflexivity]).
  apply spaces_range in Sa as [_ <-]. cbn [wrap] in *. apply simple_inv in H as (l&E&Hl&_). cbn in E. inv E. inv Hl. inv H2. clear H4. split; [assumption|].
  apply part_ok_app with (m := a); [eapply spaces_ok; eauto|]. intros k Hk v' cells' w' E. assert (k = a) as -> by lia. rewrite En in E. inv E.
  assert (K : Forall rendered nodes).
  { destruct H3 as (ri'&o'&y&H). rewrite render_eq in H. unfold render_node in H. cbn [syn_name syn_range syn_children] in H. rewrite (fit_operator F) in H.
    destruct (opt_override o'); [|discriminate]. apply rows_inv in H as (l&w''&E&Hl&_). cbn in E. now inv E. }
  split; [intros [|]; destruct Hv; congruence|]. split; [intros _; exact Hb|auto].
Qed.
Lemma part_everywhere row : part_ok row 0 (List.length row) -> everywhere cell_ok row.
Proof.
  intros H. assert (K : forall k v c, nth_error row k = Some (Container v c) -> k < List.length row) by (intros k v c E; apply nth_error_Some; congruence).
  apply everywhere_intro.
  - split.
    + intros k v [cells w] E Hv. destruct (H k (conj (Nat.le_0_l k) (K _ _ _ E)) _ _ _ E) as (H1&_). exact (H1 Hv).
    + intros k (v&[cells w]&E&Hv). destruct (H k (conj (Nat.le_0_l k) (K _ _ _ E)) _ _ _ E) as (_&H2&_). exact (H2 Hv).
  - intros k v cells w cell E Hc. destruct (H k (conj (Nat.le_0_l k) (K _ _ _ E)) _ _ _ E) as (_&_&H3). exact (H3 _ Hc).
Qed.
Theorem tree_rendered :
  (forall row s e n, tree g row s e n -> rendered n -> part_ok row s e) /\
  (forall row s e t c, token g row s e t c -> token_ok row s e t c) /\
  (forall row s e name t n, wrapped g row s e name t n -> opened row s e name t n) /\
  (forall row s e t n, scripted g row s e t n -> not_container t -> rendered n -> part_ok row s e) /\
  (forall cells nodes, cells_tree g cells nodes -> Forall rendered nodes -> forall cell, In cell cells -> everywhere cell_ok cell).
Proof.
  apply tree_mutind.
  - intros. apply part_ok_nil.
  - intros row s m e a b _ IHa _ IHb H. apply rendered_simple with (b := false) in H; [|apply (fit_juxt F)]. inv H. inv H3. inv H4. apply part_ok_app with (m := m); auto.
  - intros row s x E _ _. eapply symbol_ok; eauto.
  - intros row s m e op v a Hop _ IHv _ IHa H. apply op_rule in Hop as (r&Hr&E). destruct r; inv E. apply (fit_rules F) in Hr as [Hc Hn]. cbn [op_token op_name] in *.
    apply (rendered_simple Hn) in H. inv H. inv H3. apply part_ok_app with (m := m); auto.
  - intros row s m k e op a v b Hop _ IHa _ IHv _ IHb H. apply op_rule in Hop as (r&Hr&E). destruct r; inv E; apply (fit_rules F) in Hr as [Hc Hn]; cbn [op_token op_name] in *;
      apply (rendered_simple Hn) in H; inv H; inv H3; inv H4; (apply part_ok_app with (m := m); auto; apply part_ok_app with (m := k); auto).
  - intros row s m e op a v Hop _ IHa _ IHv H. apply op_rule in Hop as (r&Hr&E). destruct r; inv E. apply (fit_rules F) in Hr. cbn [op_token op_name] in *.
    assert (K : not_container t -> get_renderer rs name = Some (RenderSimple false) -> part_ok row s e).
    { intros Hc Hn. apply (rendered_simple Hn) in H. inv H. inv H3. apply part_ok_app with (m := m); auto. eapply rendered_op; eauto. }
    destruct t; try (now apply K). destruct Hr as [Hv Hr]. destruct (rendered_script Hv Hr IHv H). apply part_ok_app with (m := m); auto.
  - intros row s e name t n Hr _ IH H. apply atoms_in in Hr. eapply rendered_atom; eauto.
  - intros row s e t ty symbols l Hl _ _ Hs _ _ _. assert (part_ok row s e) by (intros k Hk v cells w E; apply Hs in Hk as [x Hk]; congruence). destruct t; try easy; cbn; eauto.
  - intros row s v cells w nodes En Hw Hm Hc IH. exists cells, nodes, w. split; [reflexivity|]. split; [now apply cells_tree_length in Hc|]. auto.
  - intros row s m a b c Ea Hc IH Eb. eexists. split; [reflexivity|]. intros H. cbn in H. inv H. inv H3. apply part_ok_app with (m := S s); [eapply symbol_ok; eauto|].
    apply part_ok_app with (m := m); [auto|eapply symbol_ok; eauto].
  - intros row s a b Ea Eb. eexists. split; [reflexivity|]. intros _. apply part_ok_app with (m := S s); eapply symbol_ok; eauto.
  - intros row s a b e name t c before after Sb _ IH Sa Hb. exists a, b, c, before, after. auto.
  - intros row s e t n _ IH Ht H. eapply rendered_op; eauto.
  - intros row s m e t n v name op Hv _ IHn _ IHo Ht H.
    assert (Hv' : v = Sub \/ v = Sup) by (destruct Hv as [[-> _]|[-> _]]; auto).
    assert (Hn : script_renderer (get_renderer rs name)) by (destruct Hv as [[_ ->]|[_ ->]]; [left; apply (fit_sub F)|right; apply (fit_sup F)]).
    destruct (rendered_script Hv' Hn IHo H). apply part_ok_app with (m := m); auto.
  - easy.
  - intros cell cells n nodes _ IHn _ IHc H c [<-|Hc]; inv H; [|auto]. apply part_everywhere. auto.
Qed.
End Node.

(** ** The default grammar *)
Definition rule_fits (rs : Renderers) (r : ParseRule) : bool :=
  match r with
  | NameOnly _ => true
  | RAtom name t =>
      match t, get_renderer rs name with
      | TContainer Fraction, Some (RenderRows Tmfrac) | TContainer RootV, Some RenderRoot | TContainer Table, Some RenderTable => true
      | TContainer _, _ => false
      | (TBrackets _ _ | TEmptyBrackets _ _), Some (RenderSimple b) => b
      | (TBrackets _ _ | TEmptyBrackets _ _), _ => false
      | _, Some (RenderText _) => true
      | _, _ => false
      end
  | RPrefix name _ t | RLeftInfix name _ t | RRightInfix name _ t =>
      match t, get_renderer rs name with TContainer _, _ => false | _, Some (RenderSimple b) => negb b | _, _ => false end
  | RPostfix name _ t =>
      match t, get_renderer rs name with
      | TContainer (Sub | Sup), Some (RenderScript (Tmsub | Tmsup)) => true
      | TContainer _, _ => false
      | _, Some (RenderSimple b) => negb b
      | _, _ => false
      end
  end.
Lemma rule_fits_ok rs rules : forallb (rule_fits rs) rules = true -> forall r, In r rules ->
    match r with
    | NameOnly _ => True
    | RAtom name t =>
        match t with
        | TContainer v => container_renderer v (get_renderer rs name)
        | TBrackets _ _ | TEmptyBrackets _ _ => get_renderer rs name = Some (RenderSimple true)
        | _ => exists tag, get_renderer rs name = Some (RenderText tag)
        end
    | RPrefix name _ t | RLeftInfix name _ t | RRightInfix name _ t => not_container t /\ get_renderer rs name = Some (RenderSimple false)
    | RPostfix name _ t =>
        match t with
        | TContainer v => (v = Sub \/ v = Sup) /\ script_renderer (get_renderer rs name)
        | _ => get_renderer rs name = Some (RenderSimple false)
        end
    end.
Proof.
  intros H r Hr. rewrite forallb_forall in H. apply H in Hr. unfold rule_fits in Hr. unfold container_renderer, not_container, script_renderer.
  destruct r as [name|name t|name v t|name v t|name v t|name v t]; auto; destruct t as [l ty|w|x y|x y| | |]; try destruct w;
    destruct (get_renderer rs name) as [[|tag| | |tag|tag| | | |b]|]; try discriminate; try (destruct tag; try discriminate); try (destruct b; try discriminate); eauto.
Qed.
Definition renderer_eqb (a : option Renderer) (b : Renderer) : bool :=
  match a, b with
  | Some RenderOperator, RenderOperator | Some RenderWhitespaces, RenderWhitespaces | Some (RenderText Tmspace), RenderText Tmspace
  | Some (RenderScript Tmsub), RenderScript Tmsub | Some (RenderScript Tmsup), RenderScript Tmsup | Some RenderMissing, RenderMissing
  | Some (RenderText Tmerror), RenderText Tmerror | Some (RenderSimple false), RenderSimple false => true
  | _, _ => false
  end.
Lemma renderer_eqb_ok a b : renderer_eqb a b = true -> a = Some b.
Proof. destruct a as [[|[]| | |[]|[]| | | |[]]|], b as [|[]| | |[]|[]| | | |[]]; cbn; congruence. Qed.
Definition all_fit (rs : Renderers) (rules : list ParseRule) : bool :=
  renderer_eqb (get_renderer rs operator_rule_name) RenderOperator && renderer_eqb (get_renderer rs whitespaces_rule_name) RenderWhitespaces &&
  renderer_eqb (get_renderer rs whitespace_rule_name) (RenderText Tmspace) && renderer_eqb (get_renderer rs sub_rule_name) (RenderScript Tmsub) &&
  renderer_eqb (get_renderer rs sup_rule_name) (RenderScript Tmsup) && renderer_eqb (get_renderer rs error_missing_token_name) RenderMissing &&
  renderer_eqb (get_renderer rs error_unknown_token_name) (RenderText Tmerror) && renderer_eqb (get_renderer rs error_missing_operator_name) (RenderSimple false) &&
  forallb (fun r => match rule_token r with Some (TBrackets x _) => negb (str_eqb x space) | _ => true end) rules && forallb (rule_fits rs) rules.
Lemma all_fit_ok rs g : all_fit rs (g_rules g) = true -> fits rs g.
Proof.
  unfold all_fit. intros H. repeat (apply andb_prop in H as [H ?]). constructor; try (now apply renderer_eqb_ok); [|now apply rule_fits_ok].
  intros x (r&b&Hr&Ht) ->. rewrite forallb_forall in H1. specialize (H1 r Hr). rewrite Ht in H1. discriminate H1.
Qed.
Lemma no_spaces_follow kind row : no_space_before_scripts row -> spaces_follow kind row.
Proof. intros H j k Hs (L&A&_). exfalso. destruct k as [|k]; [lia|]. apply (H k Hs). apply A. lia. Qed.
Lemma settled_start g row : settled g row 0.
Proof. intros _ i E. discriminate E. Qed.
Definition default_renderers : Renderers := match make_renderers (map rule_name default_parse_rules) with Ok rs => rs | _ => [] end.
Lemma default_make xs xc : make_renderers (grammar_names (default_grammar xs xc)) = Ok default_renderers.
Proof. unfold grammar_names. cbn [g_rules default_grammar]. vm_compute. reflexivity. Qed.
Lemma default_fits xs xc : fits default_renderers (default_grammar xs xc).
Proof. apply all_fit_ok. cbn [g_rules default_grammar]. vm_compute. reflexivity. Qed.

Theorem default_rendered xs xc doc n : wf_row doc -> parse (default_grammar xs xc) doc = Ok n ->
  everywhere two_cells doc -> everywhere no_space_after_scripts doc -> everywhere no_space_before_scripts doc -> exists x, render_all default_renderers n = Ok x.
Proof.
  intros Hwf En H2 Ha Hb. apply parse_shape in En; [|apply default_no_empty_tokens].
  destruct (@tree_renders _ _ (default_fits xs xc) (fun _ => False) ltac:(intros x []) ltac:(intros x [])) as (T&_). apply T in En; [apply En| |apply settled_start]. intros p row E. split; [eapply wf_nonempty; eauto|]. split; [eauto|]. split; [eauto|apply no_spaces_follow; eauto].
Qed.
Theorem default_rendered_inv xs xc doc n x : parse (default_grammar xs xc) doc = Ok n -> render_all default_renderers n = Ok x ->
  everywhere two_cells doc /\ everywhere no_space_after_scripts doc.
Proof.
  intros En Hx. apply parse_shape in En; [|apply default_no_empty_tokens].
  destruct (tree_rendered (default_fits xs xc)) as (T&_). apply T in En; [|exists None, no_options, x; exact Hx]. apply part_everywhere in En.
  split; intros p row E; apply (En p row E).
Qed.
