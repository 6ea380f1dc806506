(** The default rules, chains of operators. *)
From Coq Require Import String.
From Verif Require Import Base Str Grid Node Autocomplete Spec NameMap Syntax Pratt Grammar SpecSyntax SpecPratt BaseFacts ParseFacts ParseTotal PrattFacts FindFacts SyntaxFind.
Open Scope list_scope.
Open Scope nat_scope.
Set Implicit Arguments.
Unset Strict Implicit.

Lemma default_no_empty_tokens xs xc : no_empty_tokens (default_grammar xs xc).
Proof.
  assert (F : forallb (fun r => match rule_token r with Some (TSymbols [] _) => false | _ => true end) default_parse_rules = true) by reflexivity.
  intros r t Hr Ht ty ->. rewrite forallb_forall in F. apply F in Hr. now rewrite Ht in Hr.
Qed.
Lemma containers_check g : (forall v, existsb (fun r => match rule_token r with Some (TContainer w) => variant_eqb w v | _ => false end) (g_rules g) = true) -> all_containers g.
Proof.
  intros F v. specialize (F v). apply existsb_exists in F as (r&Hr&E). exists r. split; [exact Hr|].
  destruct (rule_token r) as [[]|]; try discriminate. f_equal. f_equal. destruct v0, v; try discriminate; reflexivity.
Qed.
Lemma default_all_containers xs xc : all_containers (default_grammar xs xc).
Proof. apply containers_check. intros []; reflexivity. Qed.
Theorem default_covers xs xc doc : wf_row doc -> exists n, parse (default_grammar xs xc) doc = Ok n /\ covers doc 0 (length doc) n.
Proof. apply parse_covers; [apply default_no_empty_tokens|apply default_all_containers]. Qed.
Lemma parse_text g doc n : no_empty_tokens g -> all_containers g -> wf_row doc -> parse g doc = Ok n -> leaf_text n = concat (Spec.symbols doc).
Proof. intros Ht Hc Hwf E. destruct (parse_covers Ht Hc Hwf) as (n'&E'&C). rewrite E in E'. inv E'. now apply covers_text. Qed.
Lemma parse_find g doc n p row : no_empty_tokens g -> all_containers g -> wf_row doc -> parse g doc = Ok n -> row_get doc p = Some row ->
  exists n', get_node_with_row_indices n p = Ok n' /\ covers row 0 (length row) n'.
Proof. intros Ht Hc Hwf E Hr. destruct (parse_covers Ht Hc Hwf) as (n'&E'&C). rewrite E in E'. inv E'. eapply find_row; eauto. Qed.

(** ** Chains *)
Definition Link := (OpParser * SyntaxNode * SyntaxNode)%type.
Definition chain_tokens (a : SyntaxNode) (l : list Link) : list Token := TkAtom a :: flat_map (fun '(op, v, b) => [TkInfix op v; TkAtom b]) l.
Definition left_nest (a : SyntaxNode) (l : list Link) : Expr := fold_left (fun t '(op, v, b) => EInfix t op v (EAtom b)) l (EAtom a).
Fixpoint right_nest (a : SyntaxNode) (l : list Link) : Expr :=
  match l with
  | [] => EAtom a
  | (op, v, b) :: l => EInfix (EAtom a) op v (right_nest b l)
  end.
Lemma left_nest_flatten l : forall t, flatten (fold_left (fun t '(op, v, b) => EInfix t op v (EAtom b)) l t) = flatten t ++ flat_map (fun '(op, v, b) => [TkInfix op v; TkAtom b]) l.
Proof.
  induction l as [|[[op v] b] l IH]; intros t; cbn [fold_left flat_map]; [now rewrite app_nil_r|]. rewrite IH. cbn [flatten]. now rewrite <- app_assoc.
Qed.
Lemma left_nest_respects p l : (forall op v b, In (op, v, b) l -> op_power op = BLeftInfix p) -> forall t, respects t ->
  (forall s, In s (right_edge t) -> s = (p, Strong)) -> respects (fold_left (fun t '(op, v, b) => EInfix t op v (EAtom b)) l t).
Proof.
  induction l as [|[[op v] b] l IH]; intros Hl t Ht He; cbn [fold_left]; [exact Ht|]. apply IH.
  - intros. eapply Hl. right; eauto.
  - cbn. unfold left_power. rewrite (Hl op v b (or_introl eq_refl)). repeat split; auto.
    + intros s Hs. apply He in Hs as ->. right. cbn. auto.
    + intros s [].
  - cbn. intros s [<-|[]]. unfold pull_right. now rewrite (Hl op v b (or_introl eq_refl)).
Qed.
Theorem left_chain g p doc a l : no_empty_tokens g -> all_containers g -> wf_row doc ->
  (forall op v b, In (op, v, b) l -> op_power op = BLeftInfix p) -> tokens_of g doc (chain_tokens a l) -> parse g doc = Ok (build (left_nest a l)).
Proof.
  intros Ht Hc Hwf Hl Hd. apply parse_complete; auto.
  - unfold left_nest. now rewrite left_nest_flatten.
  - eapply left_nest_respects; [exact Hl|exact I|intros s []].
Qed.
Lemma right_nest_flatten l : forall a, flatten (right_nest a l) = chain_tokens a l.
Proof. induction l as [|[[op v] b] l IH]; intros a; [reflexivity|]. cbn [right_nest flatten]. rewrite IH. reflexivity. Qed.
Lemma right_nest_respects p l : (forall op v b, In (op, v, b) l -> op_power op = BRightInfix p) -> forall a,
  respects (right_nest a l) /\ (forall s, In s (left_edge (right_nest a l)) -> s = (p, Strong)).
Proof.
  induction l as [|[[op v] b] l IH]; intros Hl a; cbn [right_nest respects left_edge]; [split; [exact I|intros s []]|].
  destruct (IH (fun op v b H => Hl op v b (or_intror H)) b) as [Hr He]. unfold left_power, pull_right. rewrite (Hl op v b (or_introl eq_refl)). split.
  - repeat split; auto; [intros s []|]. intros s Hs Hw. apply He in Hs as ->. destruct Hw as [Hw|(_&Hw&_)]; [cbn in Hw; lia|discriminate].
  - intros s [<-|[]]. reflexivity.
Qed.
Theorem right_chain g p doc a l : no_empty_tokens g -> all_containers g -> wf_row doc ->
  (forall op v b, In (op, v, b) l -> op_power op = BRightInfix p) -> tokens_of g doc (chain_tokens a l) -> parse g doc = Ok (build (right_nest a l)).
Proof.
  intros Ht Hc Hwf Hl Hd. apply parse_complete; auto.
  - now rewrite right_nest_flatten.
  - now apply (right_nest_respects Hl).
Qed.
(** An operand of an operator never is an operator expression that binds weaker on that side. *)
Theorem operands_bind_stronger t : respects t -> match t with
  | EInfix (EInfix _ op1 _ _ as a) op _ _ | EPostfix (EInfix _ op1 _ _ as a) op _ | EInfix (EPrefix op1 _ _ as a) op _ _ | EPostfix (EPrefix op1 _ _ as a) op _ =>
      weaker (left_power op) (pull_right op1)
  | _ => True
  end /\ match t with
  | EInfix _ op _ (EInfix _ op1 _ _ as b) | EInfix _ op _ (EPostfix _ op1 _ as b) | EPrefix op _ (EInfix _ op1 _ _ as b) | EPrefix op _ (EPostfix _ op1 _ as b) =>
      ~ weaker (left_power op1) (pull_right op)
  | _ => True
  end.
Proof.
  intros H. split; destruct t as [|op ? a|a op ? b|a op ?| |]; try exact I; cbn [respects] in H.
  - destruct a; try exact I; apply H; now left.
  - destruct a; try exact I; apply H; now left.
  - destruct a; try exact I; apply H; now left.
  - destruct b; try exact I; apply H; now left.
Qed.

(** ** Computing tokens *)
Fixpoint lex_run (g : Grammar) (e : Ending) (fuel : nat) (st : State * Input) : option (list Token * (State * Input)) :=
  match fuel with
  | 0 => None
  | S fuel =>
      match next g e (fst st) (snd st) with
      | Ok None => Some ([], st)
      | Ok (Some (k, st)) => match lex_run g e fuel st with Some (l, st) => Some (k :: l, st) | None => None end
      | Panic _ => None
      end
  end.
Lemma lex_run_ok g e fuel : forall st l st', lex_run g e fuel st = Some (l, st') -> lexes g e st l st' /\ next g e (fst st') (snd st') = Ok None.
Proof.
  induction fuel as [|fuel IH]; intros st l st' H; [discriminate|]. cbn [lex_run] in H. destruct (next g e (fst st) (snd st)) as [[[k st1]|]|] eqn:E; try discriminate.
  - destruct (lex_run g e fuel st1) as [[l' st2]|] eqn:E1; [|discriminate]. inv H. destruct (IH _ _ _ E1) as [L N]. split; [|exact N]. econstructor; eauto.
  - inv H. split; [constructor|exact E].
Qed.
Lemma tokens_run g doc fuel l i : lex_run g EndInput fuel (Operand, (0, doc)) = Some (l, (Operator, i)) -> tokens_of g doc l.
Proof. intros H. apply lex_run_ok in H as [L N]. exists i. auto. Qed.
Lemma parse_grid g doc n k v cells w : no_empty_tokens g -> all_containers g -> wf_row doc -> parse g doc = Ok n ->
  nth_error doc k = Some (Container v (mkGrid cells w)) ->
  exists nodes, get_child_with_new_rows n k = Ok (mkGrid nodes w) /\ length nodes = length cells /\ covers_cells cells nodes.
Proof.
  intros Ht Hc Hwf E En. destruct (parse_covers Ht Hc Hwf) as (n'&E'&C). rewrite E in E'. inv E'.
  destruct (proj1 (get_child_all k v cells w) _ _ _ _ C En) as (nodes&En'&Cn); [pose proof (nth_error_Some_lt En); lia|].
  exists nodes. repeat split; auto. eapply covers_cells_length; eauto.
Qed.
