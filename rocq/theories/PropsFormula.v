(** Formulas are read the way they are written (C67, C68). *)
From Coq Require Import String.
From Verif Require Import Base Str Grid Node NameMap Syntax Pratt Grammar SyntaxPrint SpecFormula BaseFacts FormulaFacts Samples.
Open Scope list_scope.
Open Scope nat_scope.

(** The tree of every conventionally written formula, whatever letters are, as long as no operator, bracket,
    quote or space is one and no name begins with a digit. *)
Theorem C67_formulas : forall xs xc before f, classes_ok xs xc -> spelled xs xc f -> conventional 0 0 f ->
  parse (default_grammar xs xc) (spaces before ++ written f) = Ok (tree before 0 f).
Proof. exact (fun xs xc before f HC Hs Hc => formula_parse HC before Hs Hc). Qed.
Print Assumptions C67_formulas.
(** Every formula in brackets can be used as an operand, so this covers all formulas when they have brackets
    around every operand: *)
Fixpoint bracketed (f : Formula) : Formula :=
  let b a := FAtom (ABrackets 0 (bracketed a)) 0 in
  let scripts := map (fun '(u, before, a, after) => (u, before, bracketed a, after)) in
  match f with
  | FAtom (ABrackets before a) k => FAtom (ABrackets before (bracketed a)) k
  | FAtom (ACells v w cells) k => FAtom (ACells v w (map (fun '(before, a) => (before, bracketed a)) cells)) k
  | FAtom _ _ => f
  | FPrefix op k s a => FPrefix op k (scripts s) (b a)
  | FInfix x op k s y => FInfix (b x) op k (scripts s) (b y)
  | FPostfix a op k =>
      FPostfix (b a) match op with
        | PApply before y => PApply before (bracketed y)
        | PScript u before y => PScript u before (bracketed y)
        | op => op
        end k
  end.
Lemma bracketed_scripts f s : in_scripts f (map (fun '(u, before, a, after) => (u, before, bracketed a, after)) s) -> exists a, in_scripts a s /\ f = bracketed a.
Proof. intros (u&b&k&H). apply in_map_iff in H as ([[[u' b'] a] k']&E&H). injection E as <- <- <- <-. exists a. split; [exists u', b', k'; exact H|reflexivity]. Qed.
Lemma bracketed_spelled xs xc f : spelled xs xc f -> spelled xs xc (bracketed f).
Proof.
  induction f as [a k IH|op k s a IHs IHa|a op k s b IHa IHs IHb|a op k IHa IHo] using formula_induction; intros H.
  - apply spelled_atom in H as [Ha Hi]. destruct a as [s l|c l d|c|l| |b a|v w cells]; cbn [bracketed]; try (solve [apply spelled_atom; split; [exact Ha|intros ? []]]).
    + apply spelled_atom. split; [exact I|]. intros x <-. apply IH; [reflexivity|]. now apply Hi.
    + apply spelled_atom. split.
      * cbn in *. destruct Ha as (H1&H2&H3&H4). repeat split; auto; [destruct cells; [contradiction|discriminate]|now rewrite map_length].
      * intros x (b&Hx). apply in_map_iff in Hx as ([b' y]&E&Hy). injection E as <- <-. assert (In_y : in_atom y (ACells v w cells)) by (exists b'; exact Hy). auto.
  - apply spelled_prefix in H as (Hs&Ha&_). cbn [bracketed]. apply spelled_prefix. split; [|split].
    + intros x Hx. apply bracketed_scripts in Hx as (y&Hy&->). auto.
    + apply spelled_atom. split; [exact I|]. intros x <-. auto.
    + intros _ _ _. split; discriminate.
  - apply spelled_infix in H as (Ha&Hs&Hb). cbn [bracketed]. apply spelled_infix. split; [|split].
    + apply spelled_atom. split; [exact I|]. intros x <-. auto.
    + intros x Hx. apply bracketed_scripts in Hx as (y&Hy&->). auto.
    + apply spelled_atom. split; [exact I|]. intros x <-. auto.
  - apply spelled_postfix in H as (Ha&Ho). cbn [bracketed]. apply spelled_postfix. split.
    + apply spelled_atom. split; [exact I|]. intros x <-. auto.
    + destruct op as [| |b y|u b y]; cbn [in_postfix] in *; intros x Hx; try contradiction; subst x; auto.
Qed.
Lemma bracketed_conventional f : conventional 0 0 (bracketed f).
Proof.
  induction f as [a k IH|op k s a IHs IHa|a op k s b IHa IHs IHb|a op k IHa IHo] using formula_induction.
  - destruct a as [s l|c l d|c|l| |b a|v w cells]; cbn [bracketed]; try exact I.
    + apply conventional_atom. intros x <-. now apply IH.
    + apply conventional_atom. intros x (b&Hx). apply in_map_iff in Hx as ([b' y]&E&Hy). injection E as <- <-. apply IH. exists b'. exact Hy.
  - cbn [bracketed]. apply conventional_prefix. split; [lia|]. split; [|exact IHa]. intros x Hx. apply bracketed_scripts in Hx as (y&Hy&->). auto.
  - cbn [bracketed]. apply conventional_infix. split; [lia|]. split; [lia|]. split; [|split; [exact IHa|exact IHb]]. intros x Hx. apply bracketed_scripts in Hx as (y&Hy&->). auto.
  - cbn [bracketed]. apply conventional_postfix. split; [exact IHa|]. destruct op as [| |b y|u b y]; cbn [in_postfix] in *; intros x Hx; try contradiction; subst x; auto.
Qed.
Theorem C67_brackets : forall xs xc before f, classes_ok xs xc -> spelled xs xc f ->
  parse (default_grammar xs xc) (spaces before ++ written (bracketed f)) = Ok (tree before 0 (bracketed f)).
Proof. intros xs xc before f HC Hs. apply C67_formulas; [exact HC|now apply bracketed_spelled|apply bracketed_conventional]. Qed.
Print Assumptions C67_brackets.
(** No two formulas are written the same way. *)
Theorem C67_unambiguous : forall xs xc before f before' f', classes_ok xs xc -> spelled xs xc f -> spelled xs xc f' -> conventional 0 0 f -> conventional 0 0 f' ->
  spaces before ++ written f = spaces before' ++ written f' -> before = before' /\ f = f'.
Proof. exact (fun xs xc before f before' f' HC Hs Hs' Hc Hc' H => written_inj HC Hs Hs' Hc Hc' H). Qed.
Print Assumptions C67_unambiguous.
(** Spaces between tokens do not matter: formulas that only differ in them have the same tree, except for offsets and
    the spaces themselves. *)
Theorem C67_spaces : forall xs xc before f before' f', classes_ok xs xc -> spelled xs xc f -> spelled xs xc f' -> conventional 0 0 f -> conventional 0 0 f' ->
  squeeze f = squeeze f' ->
  exists n n', parse (default_grammar xs xc) (spaces before ++ written f) = Ok n /\ parse (default_grammar xs xc) (spaces before' ++ written f') = Ok n' /\ bare n = bare n'.
Proof. exact (fun xs xc before f before' f' HC Hs Hs' Hc Hc' H => spaces_irrelevant before before' HC Hs Hs' Hc Hc' H). Qed.
Print Assumptions C67_spaces.

Definition name (s : string) (k : nat) : Formula := FAtom match single (lit s) with c :: l => AVariable c l | [] => AEmpty end k.
Definition number (s d : string) (k : nat) : Formula := FAtom match lit s with c :: l => ANumber c l (lit d) | [] => AEmpty end k.
(** [f( x, y)! - -x_12 ^(a / b) * (2.50 + ∞) = √x / ab()] and a string with a quote in it: all kinds of
    atoms, signs and operators that come after an operand *)
Definition arithmetic : Formula :=
  FInfix
    (FInfix (FPostfix (FPostfix (name "f" 0) (PApply 1 (FInfix (name "x" 0) Comma 1 [] (name "y" 0))) 0) PFactorial 1) Minus 1 []
      (FInfix (FPrefix Negative 0 [] (FPostfix (FPostfix (name "x" 0) (PScript false 0 (number "12" "" 0)) 1) (PScript true 0 (FAtom (ACells Fraction 1 [(0, name "a" 0); (1, name "b" 2)]) 0)) 0))
        Times 0 [] (FAtom (ABrackets 0 (FInfix (number "2" "50" 1) Plus 1 [] (FAtom (AConstant Infinity) 0))) 1)))
    Equals 1 []
    (FInfix
      (FInfix (FAtom (ACells RootV 2 [(0, number "2" "" 0); (0, name "x" 0)]) 0) Divide 0 [] (FPostfix (name "ab" 0) PCall 0)) Plus 0 []
      (FAtom (AString [(false, lit "a"); (true, lit """")]) 0)).
(** [∑ _(i=1) ^( n)-f (x)=limsup_x x*⊥+ _2 +[lim supper, ∫b; (), ⊤ ]]: operators before an operand, operators
    with scripts, and a table *)
Definition calculus : Formula :=
  FInfix
    (FPrefix Sum 1 [(false, 0, FInfix (name "i" 0) Equals 0 [] (number "1" "" 0), 1); (true, 2, name "n" 0, 0)]
      (FPrefix Negative 0 [] (FPostfix (name "f" 1) (PApply 0 (name "x" 0)) 0)))
    Equals 0 []
    (FInfix (FPrefix LimSup 0 [(false, 0, name "x" 0, 0)] (FInfix (name "x" 0) Times 0 [] (FAtom (AConstant Falsehood) 0))) Plus 2 [(false, 0, number "2" "" 0, 0)]
      (FPrefix Positive 0 [] (FAtom (ACells Table 2 [(0, FPrefix Lim 1 [] (name "supper" 0)); (0, FPrefix Integral 0 [] (name "b" 0)); (3, FAtom AEmpty 0); (0, FAtom (AConstant Truth) 1)]) 2))).
Lemma ascii_classes : classes_ok ascii_letter ascii_continue.
Proof.
  split.
  - assert (B : forallb (fun c => negb (ascii_letter c) && negb (ascii_continue c)) signs = true) by reflexivity.
    rewrite forallb_forall in B. intros c Hc. apply B, andb_true_iff in Hc as [H1 H2]. now rewrite negb_true_iff in H1, H2.
  - intros c Hc. unfold ascii_letter. apply orb_false_iff. rewrite !andb_false_iff, !N.leb_gt. lia.
Qed.
Lemma name_ok s k : match lit s with c :: l => ascii_letter c && forallb ascii_continue l && negb (str_eqb (firstn 3 (c :: l)) (lit "lim")) | [] => false end = true ->
  spelled ascii_letter ascii_continue (name s k).
Proof.
  unfold name. destruct (lit s) as [|c l]; [discriminate|]. intros H. apply andb_true_iff in H as [H H3]. apply andb_true_iff in H as [H1 H2].
  cbn [single map spelled]. rewrite forallb_forall in H2. split; [exists c, []; auto|]. split.
  - intros t Ht. apply in_map_iff in Ht as (x&<-&Hx). cbn. now rewrite H2.
  - change ([c] :: map (fun c => [c]) l) with (map (fun c : N => [c]) (c :: l)). rewrite firstn_map. intros E. apply (@singles_inj (firstn 3 (c :: l)) (lit "lim")) in E. rewrite E in H3. discriminate.
Qed.
Lemma digits_ok l : is_digits l = true -> Forall digit l.
Proof.
  intros H. apply Forall_forall. unfold is_digits in H. rewrite forallb_forall in H. intros c Hc. apply H, andb_true_iff in Hc as [H1 H2].
  apply N.leb_le in H1, H2. now split.
Qed.
Lemma number_ok s d k : is_digits (lit s) && is_digits (lit d) = true -> spelled ascii_letter ascii_continue (number s d k).
Proof.
  intros H. apply andb_true_iff in H as [H1 H2]. apply digits_ok in H1, H2. unfold number. destruct (lit s); [exact I|]. cbn. inv H1. auto.
Qed.
Ltac spell := repeat match goal with
  | |- _ /\ _ => split
  | |- True => exact I
  | |- spelled _ _ (name _ _) => apply name_ok; reflexivity
  | |- spelled _ _ (number _ _ _) => apply number_ok; reflexivity
  | |- In _ _ => cbn; tauto
  | |- _ = Lim -> _ => try (intros; discriminate)
  | |- spelled _ _ _ => cbn [spelled fold_right]
  end; try discriminate; try lia; try reflexivity.
Example C67_case : classes_ok ascii_letter ascii_continue /\ spelled ascii_letter ascii_continue arithmetic /\ conventional 0 0 arithmetic /\
  spelled ascii_letter ascii_continue calculus /\ conventional 0 0 calculus /\
  parse ascii_grammar (spaces 2 ++ written arithmetic) = Ok (tree 2 0 arithmetic) /\ parse ascii_grammar (written calculus) = Ok (tree 0 0 calculus).
Proof.
  split; [exact ascii_classes|]. split; [|split; [cbn; intuition lia|split; [|split; [cbn; intuition lia|split; vm_compute; reflexivity]]]].
  - unfold arithmetic. spell. intros s [E|[E|[]]]; [|discriminate E]. injection E as <-. split; discriminate.
  - unfold calculus. spell.
Qed.
(** [squeeze arithmetic] differs from [arithmetic] and meets the hypotheses of C67_spaces *)
Example C67_spaces_case : squeeze (squeeze arithmetic) = squeeze arithmetic /\ squeeze arithmetic <> arithmetic /\ spelled ascii_letter ascii_continue (squeeze arithmetic) /\
  conventional 0 0 (squeeze arithmetic).
Proof.
  split; [reflexivity|]. split; [discriminate|]. split; [|cbn; intuition lia].
  unfold arithmetic. cbn [squeeze map].
  repeat match goal with |- context [squeeze (name ?s ?k)] => change (squeeze (name s k)) with (name s 0) | |- context [squeeze (number ?s ?d ?k)] => change (squeeze (number s d k)) with (number s d 0) end.
  spell. intros s [E|[E|[]]]; [|discriminate E]. injection E as <-. split; discriminate.
Qed.

(** ** What is not read the way it is written *)
(** "¬a" is an infix operator whose left operand is missing. *)
Theorem C68_not_refuted : exists f, spelled ascii_letter ascii_continue f /\ conventional 6 6 f /\
  parse ascii_grammar (sign 172 :: written f) <> Ok (mkSyntax (named "Logic" "Not") (Children [op_leaf 172 0; tree 0 1 f]) 0 (S (width f))) /\
  parse ascii_grammar (sign 172 :: written f) = Ok (mkSyntax (named "Logic" "Not") (Children [mkSyntax error_missing_token_name (Children []) 0 0; op_leaf 172 0; tree 0 1 f]) 0 (S (width f))).
Proof.
  exists (name "a" 0). split; [apply name_ok; reflexivity|]. split; [exact I|].
  assert (E : parse ascii_grammar (sign 172 :: written (name "a" 0)) = Ok (mkSyntax (named "Logic" "Not") (Children [mkSyntax error_missing_token_name (Children []) 0 0; op_leaf 172 0; tree 0 1 (name "a" 0)]) 0 (S (width (name "a" 0))))) by (vm_compute; reflexivity).
  rewrite E. split; [|reflexivity]. intros H. discriminate H.
Qed.
Print Assumptions C68_not_refuted.
(** Names that begin with "lim" are limits: "limit" is the limit of "it". *)
Theorem C68_names_refuted : exists s l, (exists c, s = [c] /\ ascii_letter c = true) /\ (forall t, In t l -> forallb ascii_continue t = true) /\
  parse ascii_grammar (written (FAtom (AVariable s l) 0)) <> Ok (tree 0 0 (FAtom (AVariable s l) 0)) /\
  parse ascii_grammar (written (FAtom (AVariable s l) 0)) = Ok (tree 0 0 (FPrefix Lim 0 [] (name "it" 0))).
Proof.
  exists (lit "l"), (single (lit "imit")). split; [eexists; split; reflexivity|]. split; [intros t Ht; cbn in Ht; intuition (subst; reflexivity)|].
  assert (E : parse ascii_grammar (written (FAtom (AVariable (lit "l") (single (lit "imit"))) 0)) = Ok (tree 0 0 (FPrefix Lim 0 [] (name "it" 0)))) by (vm_compute; reflexivity).
  rewrite E. split; [|reflexivity]. intros H. discriminate H.
Qed.
Print Assumptions C68_names_refuted.
(** "a^b" as it is typed is no power: "^" comes after an operand and takes none to its right, so the
    operator between [a^] and [b] is missing. *)
Theorem C68_caret_refuted : exists a b, spelled ascii_letter ascii_continue a /\ spelled ascii_letter ascii_continue b /\ conventional 6 6 a /\ conventional 6 6 b /\
  parse ascii_grammar (written a ++ sign 94 :: written b) =
    Ok (mkSyntax error_missing_operator_name
      (Children [mkSyntax (named "Arithmetic" "Exponent") (Children [tree 0 0 a; op_leaf 94 1]) 0 2; mkSyntax error_missing_token_name (Children []) 2 2; tree 0 2 b]) 0 3).
Proof.
  exists (name "a" 0), (name "b" 0). split; [apply name_ok; reflexivity|].
  split; [apply name_ok; reflexivity|]. split; [exact I|]. split; [exact I|]. vm_compute. reflexivity.
Qed.
Print Assumptions C68_caret_refuted.
(** A product written without an operator binds less than every operator: "1+2x" is the sum of 1 and 2
    followed by x. *)
Theorem C68_juxtaposition_refuted : exists a b c, spelled ascii_letter ascii_continue a /\ spelled ascii_letter ascii_continue b /\ spelled ascii_letter ascii_continue c /\
  conventional 6 6 a /\ conventional 6 6 b /\ conventional 6 6 c /\
  parse ascii_grammar (written a ++ sign 43 :: written b ++ written c) =
    Ok (mkSyntax error_missing_operator_name (Children [tree 0 0 (FInfix a Plus 0 [] b); mkSyntax error_missing_token_name (Children []) 3 3; tree 0 3 c]) 0 4).
Proof.
  exists (number "1" "" 0), (number "2" "" 0), (name "x" 0). split; [apply number_ok; reflexivity|]. split; [apply number_ok; reflexivity|]. split; [apply name_ok; reflexivity|].
  repeat (split; [exact I|]). vm_compute. reflexivity.
Qed.
Print Assumptions C68_juxtaposition_refuted.
