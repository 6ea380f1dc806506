(** Operator precedence. *)
From Coq Require Import String.
From Verif Require Import Base Str Grid Node Focus Autocomplete Spec NameMap Syntax Pratt SyntaxFind SpecSyntax SpecPratt BaseFacts TreeFacts ParseFacts ParseTotal.
Open Scope list_scope.
Open Scope nat_scope.
Set Implicit Arguments.
Unset Strict Implicit.

Lemma power_ltb_iff a b : power_ltb a b = true <-> weaker a b.
Proof.
  unfold power_ltb, weaker. destruct a as [v s], b as [w t]. cbn [fst snd]. rewrite orb_true_iff, andb_true_iff, Nat.ltb_lt, Nat.eqb_eq.
  destruct s, t; cbn; intuition (try discriminate; try lia; auto).
Qed.
Lemma power_ltb_false a b : power_ltb a b = false <-> ~ weaker a b.
Proof. rewrite <- power_ltb_iff. destruct (power_ltb a b); split; congruence. Qed.

(** ** There is only one tree *)
(** Reading tokens by their binding powers, as a relation. *)
Definition pulls (k : Token) (p : Power) : Prop := match pull_left k with Some s => ~ weaker s p | None => True end.
Inductive reads_expr : Power -> list Token -> Expr -> list Token -> Prop :=
| re_atom m n l t r : reads_more m (EAtom n) l t r -> reads_expr m (TkAtom n :: l) t r
| re_prefix m op v l a l1 t r : reads_expr (pull_right op) l a l1 -> reads_more m (EPrefix op v a) l1 t r -> reads_expr m (TkPrefix op v :: l) t r
with reads_more : Power -> Expr -> list Token -> Expr -> list Token -> Prop :=
| rm_end m a : reads_more m a [] a []
| rm_stop m a k l s : pull_left k = Some s -> weaker s m -> reads_more m a (k :: l) a (k :: l)
| rm_infix m a op v l b l1 t r : ~ weaker (left_power op) m -> reads_expr (pull_right op) l b l1 ->
    reads_more m (EInfix a op v b) l1 t r -> reads_more m a (TkInfix op v :: l) t r
| rm_postfix m a op v l t r : ~ weaker (left_power op) m -> reads_more m (EPostfix a op v) l t r -> reads_more m a (TkPostfix op v :: l) t r
| rm_juxt m a l b l1 t r : ~ weaker (100, Weak) m -> reads_expr juxt_right l b l1 -> reads_more m (EJuxt a b) l1 t r -> reads_more m a (TkJuxt :: l) t r
| rm_unknown m a n l t r : reads_more m (EUnknown a n) l t r -> reads_more m a (TkUnknown n :: l) t r.
Scheme reads_expr_mut := Induction for reads_expr Sort Prop with reads_more_mut := Induction for reads_more Sort Prop.
Combined Scheme reads_mutind from reads_expr_mut, reads_more_mut.

Lemma reads_det :
  (forall m l t r, reads_expr m l t r -> forall t' r', reads_expr m l t' r' -> t' = t /\ r' = r) /\
  (forall m a l t r, reads_more m a l t r -> forall t' r', reads_more m a l t' r' -> t' = t /\ r' = r).
Proof.
  apply reads_mutind.
  - intros m n l t r _ IH t' r' H. inv H. auto.
  - intros m op v l a l1 t r _ IHa _ IHt t' r' H. inv H. match goal with X : reads_expr _ _ _ _ |- _ => apply IHa in X as [-> ->] end. auto.
  - intros m a t' r' H. inv H. auto.
  - intros m a k l s Hk Hw t' r' H. inv H; cbn in Hk; inv Hk; auto; contradiction.
  - intros m a op v l b l1 t r Hw _ IHb _ IHt t' r' H. inv H; [cbn in *; congruence|]. match goal with X : reads_expr _ _ _ _ |- _ => apply IHb in X as [-> ->] end. auto.
  - intros m a op v l t r Hw _ IHt t' r' H. inv H; [cbn in *; congruence|]. auto.
  - intros m a l b l1 t r Hw _ IHb _ IHt t' r' H. inv H; [cbn in *; congruence|]. match goal with X : reads_expr _ _ _ _ |- _ => apply IHb in X as [-> ->] end. auto.
  - intros m a n l t r _ IHt t' r' H. inv H; [cbn in *; congruence|]. auto.
Qed.
(** The next token does not take a part of the tree. *)
Definition fits (t : Expr) (r : list Token) : Prop :=
  match r with
  | [] => True
  | k :: _ => match pull_left k with Some s => holds_left t s | None => right_edge t = [] end
  end.
Lemma fits_stop t m r : In m (right_edge t) -> fits t r -> forall a, reads_more m a r a r.
Proof.
  intros Hm Hf a. destruct r as [|k r]; [constructor|]. cbn [fits] in Hf. destruct (pull_left k) as [s|] eqn:E.
  - eapply rm_stop; eauto.
  - rewrite Hf in Hm. destruct Hm.
Qed.
Lemma fits_incl t t' r : (forall s, In s (right_edge t') -> In s (right_edge t)) -> fits t r -> fits t' r.
Proof.
  intros H Hf. destruct r as [|k r]; [exact I|]. cbn [fits] in *. destruct (pull_left k).
  - intros s Hs. auto.
  - rewrite Hf in H. destruct (right_edge t') as [|s l]; [reflexivity|]. destruct (H s). now left.
Qed.
Lemma reads_complete t : respects t -> forall m r t' r', holds_right m t -> fits t r ->
  reads_more m t r t' r' -> reads_expr m (flatten t ++ r) t' r'.
Proof.
  induction t as [n|op v a IHa|a IHa op v b IHb|a IHa op v|a IHa b IHb|a IHa n]; intros Hr m r t' r' Hm Hf H; cbn [flatten respects] in *.
  - constructor. exact H.
  - destruct Hr as [Ha Hop]. cbn [app]. econstructor; [|exact H].
    assert (F : fits a r) by (eapply fits_incl; [|exact Hf]; cbn; auto).
    apply IHa; auto. eapply fits_stop; [|exact Hf]. now left.
  - destruct Hr as (Ha&Hb&Hl&Hop). rewrite <- app_assoc. cbn [app]. apply IHa; auto.
    + intros s Hs. apply Hm. now right.
    + econstructor; [apply Hm; now left| |exact H].
      assert (F : fits b r) by (eapply fits_incl; [|exact Hf]; cbn; auto).
      apply IHb; auto. eapply fits_stop; [|exact Hf]. now left.
  - destruct Hr as [Ha Hl]. rewrite <- app_assoc. cbn [app]. apply IHa; auto.
    + intros s Hs. apply Hm. now right.
    + econstructor; [apply Hm; now left|exact H].
  - destruct Hr as (Ha&Hb&Hl&Hop). rewrite <- app_assoc. cbn [app]. apply IHa; auto.
    + intros s Hs. apply Hm. now right.
    + econstructor; [apply Hm; now left| |exact H].
      assert (F : fits b r) by (eapply fits_incl; [|exact Hf]; cbn; auto).
      apply IHb; auto. eapply fits_stop; [|exact Hf]. now left.
  - destruct Hr as [Ha Hl]. rewrite <- app_assoc. cbn [app]. apply IHa; auto.
    econstructor. exact H.
Qed.
Lemma weaker_0 s : ~ weaker s (0, Weak).
Proof. intros [H|(_&_&H)]; [cbn in H; lia|discriminate]. Qed.
Theorem respects_unique t t' : respects t -> respects t' -> flatten t = flatten t' -> t = t'.
Proof.
  intros H H' E.
  assert (K : forall t, respects t -> reads_expr (0, Weak) (flatten t) t []).
  { intros u Hu. rewrite <- (app_nil_r (flatten u)). apply reads_complete; auto; [intros s _; apply weaker_0|exact I|constructor]. }
  apply K in H. apply K in H'. rewrite E in H. now destruct (proj1 reads_det _ _ _ _ H' _ _ H).
Qed.

(** The tree as the parser puts it together. *)
Fixpoint assemble (t : Expr) : Res SyntaxNode :=
  match t with
  | EAtom n => Ok n
  | EPrefix op v a => x <- assemble a ;; build_prefix (op_name op) v x
  | EInfix a op v b => x <- assemble a ;; y <- assemble b ;; build_infix (op_name op) v x y
  | EPostfix a op v => x <- assemble a ;; build_postfix (op_name op) v x
  | EJuxt a b => x <- assemble a ;; y <- assemble b ;; missing_operator x y
  | EUnknown a n => x <- assemble a ;; missing_operator x n
  end.
Lemma pull_right_eq op : strength_right (op_power op) = pull_right op.
Proof. unfold strength_right, strength_left, pull_right. now destruct (op_power op). Qed.
(** ** The parser returns this tree *)
Lemma lexes_app g e st l st1 l' st2 : lexes g e st l st1 -> lexes g e st1 l' st2 -> lexes g e st (l ++ l') st2.
Proof. intros H H'. induction H as [|st k st1 l st3 Hn Hl IH]; [exact H'|]. cbn. econstructor; eauto. Qed.
Lemma lexes_one g e st k st1 : next g e (fst st) (snd st) = Ok (Some (k, st1)) -> lexes g e st [k] st1.
Proof. intros H. econstructor; [exact H|constructor]. Qed.

Section Sound.
Variable g : Grammar.
Hypothesis Htok : no_empty_tokens g.
Hypothesis Hcont : all_containers g.

Section At.
Variables (row : InputRow) (pos f : nat).
Hypotheses (Hwf : wf_row row) (Hp : pos <= length row) (Hs : row_size (skipn pos row) <= f).
Local Notation i := (inp row pos).
Local Notation rec := (pratt_parse g f).

Lemma token_rec : rec_ok g (row_size (skipn pos row)) (token_parser g i) rec.
Proof. unfold token_parser. cbn [inp snd]. apply pratt_parse_ok; auto. Qed.
Lemma token_rows : forall cell n, row_size cell < row_size (skipn pos row) -> parse_row_with (token_parser g i) cell = Ok n -> P g cell n.
Proof. exact (@parse_rows g _). Qed.
Lemma prefix_at_ok : exists o, parse_prefix g rec i = Ok o /\ prefix_at g i = Ok o /\
  match o with Some ((_, op), i1) => exists p, i1 = inp row p /\ pos < p <= length row | None => True end.
Proof.
  destruct (parse_prefix_ok Htok token_rec token_rows Hwf Hp (Nat.le_refl _)) as (o&E&E'&Ho). exists o. repeat split; auto.
  destruct o as [[[v op] i1]|]; [|exact I]. destruct Ho as (p&->&Hp'&_). eauto.
Qed.
Lemma infix_at_ok : exists o, parse_infix g rec i = Ok o /\ infix_at g i = Ok o /\
  match o with Some ((_, op), i1) => exists p, i1 = inp row p /\ pos < p <= length row | None => True end.
Proof.
  destruct (parse_infix_ok Htok token_rec token_rows Hwf Hp (Nat.le_refl _)) as (o&E&E'&Ho). exists o. repeat split; auto.
  destruct o as [[[v op] i1]|]; [|exact I]. destruct Ho as (p&->&Hp'&_). eauto.
Qed.
Lemma postfix_at_ok : exists o, parse_postfix g rec i = Ok o /\ postfix_at g i = Ok o /\
  match o with Some ((_, op), i1) => exists p, i1 = inp row p /\ pos < p <= length row | None => True end.
Proof.
  destruct (parse_postfix_ok Htok token_rec token_rows Hwf Hp (Nat.le_refl _)) as (o&E&E'&Ho). exists o. repeat split; auto.
  destruct o as [[[v op] i1]|]; [|exact I]. destruct Ho as (p&->&Hp'&_). eauto.
Qed.
Lemma atom_at_ok : exists o, parse_atom g rec i = Ok o /\ atom_at g i = Ok o /\
  match o with Some (_, i1) => exists p, i1 = inp row p /\ pos < p <= length row | None => True end.
Proof.
  destruct (parse_atom_ok Htok token_rec token_rows Hwf Hp (Nat.le_refl _)) as (o&E&E'&Ho). exists o. repeat split; auto.
  destruct o as [[v i1]|]; [|exact I]. destruct Ho as (p&->&Hp'&_). eauto.
Qed.
Lemma unknown_at_ok e : at_end i = false -> prefix_at g i = Ok None -> atom_at g i = Ok None -> infix_at g i = Ok None -> postfix_at g i = Ok None ->
  exists n p, parse_unknown g rec e i = Ok (n, inp row p) /\ unknown_at g e i = Ok (n, inp row p) /\ pos < p <= length row.
Proof.
  intros He E1 E2 E3 E4. assert (Hlt : pos < length row).
  { destruct (Nat.eq_dec pos (length row)) as [E|]; [|lia]. apply at_end_inp in E; auto. congruence. }
  destruct (parse_unknown_ok Htok Hcont token_rec token_rows e Hwf Hlt (Nat.le_refl _) E1 E2 E3 E4) as (n&p&E&E'&Hp'&_). eauto.
Qed.
Lemma at_end_none : at_end i = true -> prefix_at g i = Ok None /\ atom_at g i = Ok None /\ infix_at g i = Ok None /\ postfix_at g i = Ok None.
Proof.
  intros He. apply at_end_inp in He; auto.
  destruct prefix_at_ok as (o1&_&E1&H1). destruct atom_at_ok as (o2&_&E2&H2). destruct infix_at_ok as (o3&_&E3&H3). destruct postfix_at_ok as (o4&_&E4&H4).
  rewrite E1, E2, E3, E4. repeat split; f_equal.
  - destruct o1 as [[[? ?] ?]|]; [destruct H1 as (p&_&?); lia|reflexivity].
  - destruct o2 as [[? ?]|]; [destruct H2 as (p&_&?); lia|reflexivity].
  - destruct o3 as [[[? ?] ?]|]; [destruct H3 as (p&_&?); lia|reflexivity].
  - destruct o4 as [[[? ?] ?]|]; [destruct H4 as (p&_&?); lia|reflexivity].
Qed.
End At.

(** The tree and what comes after it. *)
Definition fits_next (e : Ending) (t : Expr) (i : Input) : Prop :=
  match next g e Operator i with
  | Ok (Some (k, _)) => match pull_left k with Some s => holds_left t s | None => right_edge t = [] end
  | _ => True
  end.
Definition stopped (e : Ending) (min : Power) (ended : bool) (t : Expr) (i : Input) : Prop :=
  if ended then next g e Operator i = Ok None
  else exists k st s, next g e Operator i = Ok (Some (k, st)) /\ pull_left k = Some s /\ weaker s min /\ holds_left t s.
Definition sound (e : Ending) (min : Power) (i : Input) (ended : bool) (n : SyntaxNode) (i' : Input) : Prop :=
  exists t, lexes g e (Operand, i) (flatten t) (Operator, i') /\ assemble t = Ok n /\ respects t /\ holds_right min t /\ stopped e min ended t i'.
Definition sound_rec (f : nat) : Prop :=
  forall row pos min e ended n i', wf_row row -> pos <= length row -> row_size (skipn pos row) < f ->
    pratt_parse g f min e (inp row pos) = Ok ((ended, n), i') -> sound e min (inp row pos) ended n i'.

Lemma stopped_fits e min ended t i : stopped e min ended t i -> fits_next e t i.
Proof.
  unfold stopped, fits_next. destruct ended.
  - now intros ->.
  - intros (k&st&s&->&->&_&H). exact H.
Qed.
Lemma holds_right_nil p t : left_edge t = [] -> holds_right p t.
Proof. intros H s. now rewrite H. Qed.

Section Step.
Variable f : nat.
Hypothesis R : sound_rec f.
Local Notation rec := (pratt_parse g f).

Lemma pratt_first_sound row pos e ended n i' : wf_row row -> pos <= length row -> row_size (skipn pos row) <= f ->
  pratt_first g rec e (inp row pos) = Ok ((ended, n), i') ->
  exists t, lexes g e (Operand, inp row pos) (flatten t) (Operator, i') /\ assemble t = Ok n /\ respects t /\ left_edge t = [] /\
    fits_next e t i' /\ (ended = true -> next g e Operator i' = Ok None).
Proof.
  intros Hwf Hp Hs H. unfold pratt_first in H.
  destruct (prefix_at_ok Hwf Hp Hs) as (o1&P1&Q1&H1). destruct (atom_at_ok Hwf Hp Hs) as (o2&P2&Q2&H2).
  destruct (infix_at_ok Hwf Hp Hs) as (o3&P3&Q3&H3). destruct (postfix_at_ok Hwf Hp Hs) as (o4&P4&Q4&H4).
  assert (Atom : forall v j, next g e Operand (inp row pos) = Ok (Some (TkAtom v, (Operator, j))) ->
    exists t, lexes g e (Operand, inp row pos) (flatten t) (Operator, j) /\ assemble t = Ok v /\ respects t /\ left_edge t = [] /\ fits_next e t j).
  { intros v j En. exists (EAtom v). split; [now apply lexes_one|]. repeat split. unfold fits_next. destruct (next g e Operator j) as [[[k st]|]|]; auto.
    destruct (pull_left k); [intros s []|reflexivity]. }
  destruct (at_end (inp row pos)) eqn:Ee.
  { destruct (at_end_none Hwf Hp Hs Ee) as (E1&E2&E3&E4). apply bind_ok in H as (v&Ev&H). inv H.
    assert (En : is_at_end e (inp row pos) = true) by (unfold is_at_end; now rewrite Ee).
    destruct (Atom n (inp row pos)) as (t&Ht).
    { unfold next. rewrite E1, E2, E3, E4. cbn [bind]. rewrite En, Ev. reflexivity. }
    exists t. destruct Ht as (?&?&?&?&?). repeat split; auto. intros _. unfold next. rewrite E1, E2, E3, E4. cbn [bind]. now rewrite En. }
  rewrite P1 in H. cbn [bind] in H. destruct o1 as [[[v op] i1]|].
  { destruct H1 as (p1&->&Hp1). apply bind_ok in H as ([[en rhs] i2]&E2&H). rewrite pull_right_eq in E2. apply bind_ok in H as (m&Em&H). inv H.
    assert (Hsz : row_size (skipn p1 row) < f) by (pose proof (@size_skipn row pos p1 Hp1); lia).
    destruct (R Hwf (proj2 Hp1) Hsz E2) as (t&L&B&Rt&Hr&St).
    exists (EPrefix op v t). cbn [flatten assemble respects left_edge]. rewrite B. cbn [bind]. repeat split; auto.
    - econstructor; [|exact L]. cbn [fst snd]. unfold next. rewrite Q1, Q2, Q3, Q4. reflexivity.
    - pose proof (stopped_fits St) as F. unfold fits_next, stopped in *. destruct ended.
      + now rewrite St.
      + destruct St as (k&st&s&En&Ek&Hw&Hl). rewrite En, Ek. intros s' [<-|Hs']; auto.
    - intros ->. exact St. }
  rewrite P2 in H. cbn [bind] in H. destruct o2 as [[v i1]|].
  { inv H. destruct (Atom n i') as (t&Ht).
    { unfold next. rewrite Q1, Q2, Q3, Q4. reflexivity. }
    exists t. destruct Ht as (?&?&?&?&?). repeat split; auto. discriminate. }
  unfold or_else, can_parse in H. rewrite P3, P4 in H. cbn [bind] in H. destruct o3 as [[[v op] i1]|].
  { cbn [bind] in H. apply bind_ok in H as (w&Ew&H). inv H. destruct (Atom n (inp row pos)) as (t&Ht).
    { unfold next. rewrite Q1, Q2, Q3, Q4. cbn [bind]. now rewrite Ew. }
    exists t. destruct Ht as (?&?&?&?&?). repeat split; auto. discriminate. }
  cbn [bind] in H. destruct o4 as [[[v op] i1]|].
  { cbn [bind] in H. apply bind_ok in H as (w&Ew&H). inv H. destruct (Atom n (inp row pos)) as (t&Ht).
    { unfold next. rewrite Q1, Q2, Q3, Q4. cbn [bind]. now rewrite Ew. }
    exists t. destruct Ht as (?&?&?&?&?). repeat split; auto. discriminate. }
  cbn [bind] in H. destruct (is_at_end e (inp row pos)) eqn:En.
  { apply bind_ok in H as (w&Ew&H). inv H. destruct (Atom n (inp row pos)) as (t&Ht).
    { unfold next. rewrite Q1, Q2, Q3, Q4. cbn [bind]. now rewrite En, Ew. }
    exists t. destruct Ht as (?&?&?&?&?). repeat split; auto. intros _. unfold next. rewrite Q1, Q2, Q3, Q4. cbn [bind]. now rewrite En. }
  destruct (unknown_at_ok Hwf Hp Hs e Ee Q1 Q2 Q3 Q4) as (w&p&E1&E2&Hp'). rewrite E1 in H. cbn [bind] in H. inv H.
  destruct (Atom n (inp row p)) as (t&Ht).
  { unfold next. rewrite Q1, Q2, Q3, Q4. cbn [bind]. now rewrite En, E2. }
  exists t. destruct Ht as (?&?&?&?&?). repeat split; auto. discriminate.
Qed.

Lemma pratt_loop_sound row i0 min e : wf_row row -> forall fuel pos lhs t ended n i', pos <= length row -> row_size (skipn pos row) <= f ->
  (row_size (skipn pos row) < f \/ operator_next g rec (inp row pos)) ->
  lexes g e (Operand, i0) (flatten t) (Operator, inp row pos) -> assemble t = Ok lhs -> respects t -> holds_right min t -> fits_next e t (inp row pos) ->
  pratt_loop g rec fuel min e lhs (inp row pos) = Ok ((ended, n), i') ->
  sound e min i0 ended n i'.
Proof.
  intros Hwf. induction fuel as [|fuel IH]; intros pos lhs t ended n i' Hp Hs Hsf L B Rt Hr F H; [discriminate|]. cbn [pratt_loop] in H.
  destruct (prefix_at_ok Hwf Hp Hs) as (o1&P1&Q1&H1). destruct (atom_at_ok Hwf Hp Hs) as (o2&P2&Q2&H2).
  destruct (infix_at_ok Hwf Hp Hs) as (o3&P3&Q3&H3). destruct (postfix_at_ok Hwf Hp Hs) as (o4&P4&Q4&H4).
  destruct (at_end (inp row pos)) eqn:Ee.
  { destruct (at_end_none Hwf Hp Hs Ee) as (E1&E2&E3&E4). inv H. exists t. repeat split; auto. cbn [stopped].
    unfold next. rewrite E1, E2, E3, E4. cbn [bind]. unfold is_at_end. now rewrite Ee. }
  rewrite P3 in H. cbn [bind] in H. destruct o3 as [[[v op] i1]|].
  { assert (En : next g e Operator (inp row pos) = Ok (Some (TkInfix op v, (Operand, i1)))).
    { unfold next. now rewrite Q1, Q2, Q3, Q4. }
    unfold fits_next in F. rewrite En in F. cbn [pull_left] in F.
    destruct H3 as (p1&->&Hp1). destruct (power_ltb (strength_left (op_power op)) min) eqn:Eb.
    { inv H. exists t. repeat split; auto. cbn [stopped]. do 3 eexists. split; [exact En|]. split; [reflexivity|]. split; [now apply power_ltb_iff|exact F]. }
    apply power_ltb_false in Eb. apply bind_ok in H as ([[en rhs] i2]&E2&H). rewrite pull_right_eq in E2. apply bind_ok in H as (m&Em&H).
    assert (Hsz : row_size (skipn p1 row) < f) by (pose proof (@size_skipn row pos p1 Hp1); lia).
    destruct (pratt_parse_ok Htok Hcont (Nat.le_refl f) (pull_right op) e Hwf (proj2 Hp1) Hsz) as (en'&rhs'&p2&E2'&_&Hp2&_).
    rewrite E2 in E2'. inv E2'.
    destruct (R Hwf (proj2 Hp1) Hsz E2) as (t2&L2&B2&Rt2&Hr2&St2).
    assert (Rt' : respects (EInfix t op v t2)) by (cbn; auto).
    assert (B' : assemble (EInfix t op v t2) = Ok m) by (cbn [assemble]; rewrite B, B2; exact Em).
    assert (L' : lexes g e (Operand, i0) (flatten (EInfix t op v t2)) (Operator, inp row p2)).
    { cbn [flatten]. eapply lexes_app; [exact L|]. econstructor; [exact En|exact L2]. }
    assert (Hr' : holds_right min (EInfix t op v t2)).
    { intros s [<-|Hin]; auto. }
    destruct en'.
    - inv H. exists (EInfix t op v t2). repeat split; auto; apply Rt'.
    - eapply IH with (pos := p2) (t := EInfix t op v t2); eauto; try lia.
      + eapply smaller; [|apply Nat.lt_le_incl; exact Hsz]; lia.
      + left. destruct (Nat.eq_dec p2 p1) as [->|]; [auto|]. pose proof (@size_skipn row p1 p2). lia.
      + destruct St2 as (k&st&s&Ek&Es&Hw&Hl). unfold fits_next. rewrite Ek, Es. intros s' [<-|Hin]; auto. }
  rewrite P4 in H. cbn [bind] in H. destruct o4 as [[[v op] i1]|].
  { assert (En : next g e Operator (inp row pos) = Ok (Some (TkPostfix op v, (Operator, i1)))).
    { unfold next. now rewrite Q1, Q2, Q3, Q4. }
    unfold fits_next in F. rewrite En in F. cbn [pull_left] in F.
    destruct H4 as (p1&->&Hp1). destruct (power_ltb (strength_left (op_power op)) min) eqn:Eb.
    { inv H. exists t. repeat split; auto. cbn [stopped]. do 3 eexists. split; [exact En|]. split; [reflexivity|]. split; [now apply power_ltb_iff|exact F]. }
    apply power_ltb_false in Eb. apply bind_ok in H as (m&Em&H).
    assert (Hsz : row_size (skipn p1 row) < f) by (pose proof (@size_skipn row pos p1 Hp1); lia).
    eapply IH with (pos := p1) (t := EPostfix t op v); eauto; try lia.
    - cbn [flatten]. eapply lexes_app; [exact L|]. now apply lexes_one.
    - cbn [assemble]. rewrite B. exact Em.
    - cbn. auto.
    - intros s [<-|Hin]; auto.
    - unfold fits_next. destruct (next g e Operator (inp row p1)) as [[[k st]|]|]; auto. destruct (pull_left k); [intros ? []|reflexivity]. }
  assert (Hs' : row_size (skipn pos row) < f).
  { destruct Hsf as [?|[[x Ex]|[x Ex]]]; [auto|congruence|congruence]. }
  unfold or_else, can_parse in H. rewrite P1, P2 in H. cbn [bind] in H.
  destruct (match o1 with Some _ => true | None => match o2 with Some _ => true | None => false end end) eqn:Eo.
  { assert (En : next g e Operator (inp row pos) = Ok (Some (TkJuxt, (Operand, inp row pos)))).
    { unfold next. rewrite Q1, Q2, Q3, Q4. cbn [bind]. destruct o1; [reflexivity|]. destruct o2; [reflexivity|discriminate]. }
    assert (H' : (if power_ltb (strength_left missing_operator_power) min then Ok ((false, lhs), inp row pos)
          else
            ' ((ended, rhs), i2) <- rec (strength_right missing_operator_power) e (inp row pos) ;;
            n <- missing_operator lhs rhs ;;
            if ended : bool then Ok ((true, n), i2) else pratt_loop g rec fuel min e n i2) = Ok (ended, n, i')).
    { destruct o1; [exact H|]. destruct o2; [exact H|discriminate]. }
    clear H. rename H' into H. unfold fits_next in F. rewrite En in F. cbn [pull_left] in F.
    destruct (power_ltb (strength_left missing_operator_power) min) eqn:Eb.
    { inv H. exists t. repeat split; auto. cbn [stopped]. do 3 eexists. split; [exact En|]. split; [reflexivity|]. split; [now apply power_ltb_iff|exact F]. }
    apply power_ltb_false in Eb. apply bind_ok in H as ([[en rhs] i2]&E2&H). apply bind_ok in H as (m&Em&H).
    destruct (pratt_parse_ok Htok Hcont (Nat.le_refl f) (strength_right missing_operator_power) e Hwf Hp Hs') as (en'&rhs'&p2&E2'&_&Hp2&_).
    rewrite E2 in E2'. inv E2'.
    destruct (R Hwf Hp Hs' E2) as (t2&L2&B2&Rt2&Hr2&St2).
    assert (Rt' : respects (EJuxt t t2)) by (cbn; auto).
    assert (B' : assemble (EJuxt t t2) = Ok m) by (cbn [assemble]; rewrite B, B2; exact Em).
    assert (L' : lexes g e (Operand, i0) (flatten (EJuxt t t2)) (Operator, inp row p2)).
    { cbn [flatten]. eapply lexes_app; [exact L|]. econstructor; [exact En|exact L2]. }
    assert (Hr' : holds_right min (EJuxt t t2)).
    { intros s [<-|Hin]; auto. }
    destruct en'.
    - inv H. exists (EJuxt t t2). repeat split; auto; apply Rt'.
    - eapply IH with (pos := p2) (t := EJuxt t t2); eauto; try lia.
      + eapply smaller; [|exact Hs]; lia.
      + left. destruct (Nat.eq_dec p2 pos) as [->|]; [auto|]. pose proof (@size_skipn row pos p2). lia.
      + destruct St2 as (k&st&s&Ek&Es&Hw&Hl). unfold fits_next. rewrite Ek, Es. intros s' [<-|Hin]; auto. }
  destruct o1; [discriminate|]. destruct o2; [discriminate|]. cbn [bind] in H.
  destruct (is_at_end e (inp row pos)) eqn:Een.
  { inv H. exists t. repeat split; auto. cbn [stopped]. unfold next. rewrite Q1, Q2, Q3, Q4. cbn [bind]. now rewrite Een. }
  destruct (unknown_at_ok Hwf Hp Hs e Ee Q1 Q2 Q3 Q4) as (w&p1&E1&E2&Hp1). rewrite E1 in H. cbn [bind] in H.
  assert (En : next g e Operator (inp row pos) = Ok (Some (TkUnknown w, (Operator, inp row p1)))).
  { unfold next. rewrite Q1, Q2, Q3, Q4. cbn [bind]. now rewrite Een, E2. }
  unfold fits_next in F. rewrite En in F. cbn [pull_left] in F. apply bind_ok in H as (m&Em&H).
  assert (Hsz : row_size (skipn p1 row) < f) by (pose proof (@size_skipn row pos p1 Hp1); lia).
  eapply IH with (pos := p1) (t := EUnknown t w); eauto; try lia.
  - cbn [flatten]. eapply lexes_app; [exact L|]. now apply lexes_one.
  - cbn [assemble]. rewrite B. exact Em.
  - cbn. auto.
  - unfold fits_next. destruct (next g e Operator (inp row p1)) as [[[k st]|]|]; auto. destruct (pull_left k); [intros ? []|reflexivity].
Qed.
End Step.
Lemma pratt_parse_sound f : sound_rec f.
Proof.
  induction f as [|f IH]; intros row pos min e ended n i' Hwf Hp Hs H; [lia|]. cbn [pratt_parse] in H. unfold pratt_step in H.
  assert (Hs' : row_size (skipn pos row) <= f) by lia.
  destruct (pratt_first_ok Htok Hcont (pratt_parse_ok Htok Hcont (Nat.le_refl f)) (@parse_rows g f) e Hwf Hp Hs') as (en&lhs&p1&E&_&Hp1&_&_&Hn&_).
  rewrite E in H. cbn [bind] in H. destruct (pratt_first_sound IH Hwf Hp Hs' E) as (t&L&B&Rt&Hl&F&Hend).
  pose proof (holds_right_nil (p := min) Hl) as Hr. destruct en.
  - inv H. exists t. repeat split; auto. apply Hend. reflexivity.
  - eapply (pratt_loop_sound IH Hwf) with (pos := p1) (t := t); eauto.
    + lia.
    + eapply smaller; [|exact Hs']. lia.
    + destruct (Hn eq_refl) as [?|?]; [left|now right]. pose proof (@size_skipn row pos p1). lia.
Qed.

(** ** Ranges *)
Definition forwards (n : SyntaxNode) : Prop := start_of n <= end_of n.
Definition token_nodes (k : Token) : list SyntaxNode :=
  match k with TkPrefix _ v | TkAtom v | TkInfix _ v | TkPostfix _ v | TkUnknown v => [v] | TkJuxt => [] end.
Lemma gtree_forwards Q row s e n : gtree Q row s e n -> forwards n.
Proof. intros H. unfold forwards, start_of, end_of. rewrite (gtree_range H). cbn. exact (gtree_le H). Qed.
Lemma missing_forwards p n : missing_token p = Ok n -> forwards n.
Proof. intros H. inv H. unfold forwards. cbn. lia. Qed.
Lemma next_forwards row pos e st k st' i' : wf_row row -> pos <= length row -> next g e st (inp row pos) = Ok (Some (k, (st', i'))) ->
  (exists p, i' = inp row p /\ p <= length row) /\ (forall v, In v (token_nodes k) -> forwards v).
Proof.
  intros Hwf Hp H. unfold next in H.
  destruct (parse_prefix_ok Htok (token_rec (Nat.le_refl _)) (@token_rows row pos) Hwf Hp (Nat.le_refl _)) as (o1&E1&_&H1).
  destruct (parse_atom_ok Htok (token_rec (Nat.le_refl _)) (@token_rows row pos) Hwf Hp (Nat.le_refl _)) as (o2&E2&_&H2).
  destruct (parse_infix_ok Htok (token_rec (Nat.le_refl _)) (@token_rows row pos) Hwf Hp (Nat.le_refl _)) as (o3&E3&_&H3).
  destruct (parse_postfix_ok Htok (token_rec (Nat.le_refl _)) (@token_rows row pos) Hwf Hp (Nat.le_refl _)) as (o4&E4&_&H4).
  change (prefix_at g (inp row pos) = Ok o1) in E1. change (atom_at g (inp row pos) = Ok o2) in E2.
  change (infix_at g (inp row pos) = Ok o3) in E3. change (postfix_at g (inp row pos) = Ok o4) in E4.
  rewrite E1, E2, E3, E4 in H. cbn [bind] in H.
  assert (Node : forall n p, p <= length row -> forwards n -> (exists q, inp row p = inp row q /\ q <= length row) /\ (forall v, In v [n] -> forwards v)).
  { intros n p Hn Hf. split; [eauto|]. intros v [<-|[]]. exact Hf. }
  assert (Missing : forall n i, missing_token pos = Ok n -> i = inp row pos -> (exists p, i = inp row p /\ p <= length row) /\ (forall v, In v [n] -> forwards v)).
  { intros n i Em ->. apply Node; [exact Hp|]. eapply missing_forwards; exact Em. }
  assert (Unknown : o1 = None -> o2 = None -> o3 = None -> o4 = None -> is_at_end e (inp row pos) = false ->
    exists n p, unknown_at g e (inp row pos) = Ok (n, inp row p) /\ p <= length row /\ forwards n).
  { intros -> -> -> -> Ee. assert (Hlt : pos < length row).
    { destruct (Nat.eq_dec pos (length row)) as [E|]; [|lia]. apply at_end_inp in E; [|exact Hp]. unfold is_at_end in Ee. now rewrite E in Ee. }
    destruct (parse_unknown_ok Htok Hcont (token_rec (Nat.le_refl _)) (@token_rows row pos) e Hwf Hlt (Nat.le_refl _) E1 E2 E3 E4) as (n&p&E&_&Hp'&C).
    exists n, p. split; [exact E|]. split; [lia|]. eapply gtree_forwards; exact C. }
  destruct st.
  - destruct o1 as [[[v op] i1]|].
    { inv H. destruct H1 as (p&->&Hp1&C). apply Node; [lia|]. eapply gtree_forwards; exact C. }
    destruct o2 as [[v i1]|].
    { inv H. destruct H2 as (p&->&Hp1&C). apply Node; [lia|]. eapply gtree_forwards; exact C. }
    destruct o3 as [x3|]; [apply bind_ok in H as (n&En&H); inv H; now apply (Missing n)|].
    destruct o4 as [x4|]; [apply bind_ok in H as (n&En&H); inv H; now apply (Missing n)|].
    destruct (is_at_end e (inp row pos)) eqn:Ee; [apply bind_ok in H as (n&En&H); inv H; now apply (Missing n)|].
    destruct Unknown as (n&p&En&Hn&Hf); auto. rewrite En in H. cbn [bind] in H. inv H. now apply Node.
  - destruct o3 as [[[v op] i1]|].
    { inv H. destruct H3 as (p&->&Hp1&C). apply Node; [lia|]. eapply gtree_forwards; exact C. }
    destruct o4 as [[[v op] i1]|].
    { inv H. destruct H4 as (p&->&Hp1&C). apply Node; [lia|]. eapply gtree_forwards; exact C. }
    destruct o1 as [x1|]; [inv H; split; [eauto|intros v []]|].
    destruct o2 as [x2|]; [inv H; split; [eauto|intros v []]|].
    destruct (is_at_end e (inp row pos)) eqn:Ee; [discriminate|].
    destruct Unknown as (n&p&En&Hn&Hf); auto. rewrite En in H. cbn [bind] in H. inv H. now apply Node.
Qed.
Lemma lexes_forwards row e st st' l : wf_row row -> lexes g e st l st' -> (exists p, snd st = inp row p /\ p <= length row) ->
  forall k v, In k l -> In v (token_nodes k) -> forwards v.
Proof.
  intros Hwf L. induction L as [st|[st i] k [st1 i1] l st2 Hn L IH]; intros (p&Ei&Hp) k' v Hk Hv; [destruct Hk|].
  cbn [fst snd] in *. subst i. destruct (next_forwards Hwf Hp Hn) as [Hi Hf]. destruct Hk as [<-|Hk]; [auto|]. eapply IH; eauto.
Qed.

Lemma new_children2 name r a b n : syntax_node_new name r (Children [a; b]) = Ok n -> n = mkSyntax name (Children [a; b]) (fst r) (snd r) /\ end_of a = start_of b.
Proof.
  intros H. unfold syntax_node_new, get_combined_range in H. cbn [ranges_end] in H. unfold end_of, start_of.
  destruct (snd (syn_range a) =? fst (syn_range b)) eqn:E; [|discriminate]. cbn [assert_ bind] in H.
  apply bind_ok in H as (x&_&H). inv H. split; [reflexivity|lia].
Qed.
Lemma new_children3 name r a b c n : syntax_node_new name r (Children [a; b; c]) = Ok n ->
  n = mkSyntax name (Children [a; b; c]) (fst r) (snd r) /\ end_of a = start_of b /\ end_of b = start_of c.
Proof.
  intros H. unfold syntax_node_new, get_combined_range in H. cbn [ranges_end] in H. unfold end_of, start_of.
  destruct (snd (syn_range a) =? fst (syn_range b)) eqn:E; [|discriminate]. cbn [assert_ bind] in H.
  destruct (snd (syn_range b) =? fst (syn_range c)) eqn:E'; [|discriminate]. cbn [assert_ bind] in H.
  apply bind_ok in H as (x&_&H). inv H. repeat split; lia.
Qed.
Lemma missing_operator_build x y n : missing_operator x y = Ok n -> forwards x -> forwards y -> n = juxtaposed x y /\ forwards n.
Proof.
  unfold missing_operator, forwards. intros H Hx Hy. unfold missing_token, syntax_node_new at 1 in H. cbn [get_combined_range bind] in H. apply new_children3 in H as (->&Ha&Hb).
  unfold juxtaposed, start_of, end_of, combine_ranges in *. cbn [syn_range fst snd] in *. split; [f_equal; lia|lia].
Qed.
Lemma assemble_build t : forall n, assemble t = Ok n -> (forall k v, In k (flatten t) -> In v (token_nodes k) -> forwards v) -> n = build t /\ forwards n.
Proof.
  induction t as [m|op v a IHa|a IHa op v b IHb|a IHa op v|a IHa b IHb|a IHa m]; intros n H Hf; cbn [assemble flatten build] in *.
  - inv H. split; [reflexivity|]. apply (Hf (TkAtom n)); now left.
  - apply bind_ok in H as (x&Ex&H). destruct (IHa x Ex) as [-> Hx]; [intros k w Hk Hw; eapply Hf; [right; exact Hk|exact Hw]|].
    assert (Hv : forwards v) by (apply (Hf (TkPrefix op v)); now left). unfold build_prefix in H. apply new_children2 in H as (->&Hj).
    unfold forwards, start_of, end_of, combine_ranges in *. cbn [syn_range fst snd] in *. split; [f_equal; lia|lia].
  - apply bind_ok in H as (x&Ex&H). apply bind_ok in H as (y&Ey&H).
    destruct (IHa x Ex) as [-> Hx]; [intros k w Hk Hw; eapply Hf; [apply in_or_app; left; exact Hk|exact Hw]|].
    destruct (IHb y Ey) as [-> Hy]; [intros k w Hk Hw; eapply Hf; [apply in_or_app; right; right; exact Hk|exact Hw]|].
    assert (Hv : forwards v) by (eapply (Hf (TkInfix op v)); [apply in_or_app; right; now left|now left]).
    unfold build_infix in H. apply new_children3 in H as (->&Hj&Hj').
    unfold forwards, start_of, end_of, combine_ranges in *. cbn [syn_range fst snd] in *. split; [f_equal; lia|lia].
  - apply bind_ok in H as (x&Ex&H). destruct (IHa x Ex) as [-> Hx]; [intros k w Hk Hw; eapply Hf; [apply in_or_app; left; exact Hk|exact Hw]|].
    assert (Hv : forwards v) by (eapply (Hf (TkPostfix op v)); [apply in_or_app; right; now left|now left]).
    unfold build_postfix in H. apply new_children2 in H as (->&Hj).
    unfold forwards, start_of, end_of, combine_ranges in *. cbn [syn_range fst snd] in *. split; [f_equal; lia|lia].
  - apply bind_ok in H as (x&Ex&H). apply bind_ok in H as (y&Ey&H).
    destruct (IHa x Ex) as [-> Hx]; [intros k w Hk Hw; eapply Hf; [apply in_or_app; left; exact Hk|exact Hw]|].
    destruct (IHb y Ey) as [-> Hy]; [intros k w Hk Hw; eapply Hf; [apply in_or_app; right; right; exact Hk|exact Hw]|].
    now apply missing_operator_build.
  - apply bind_ok in H as (x&Ex&H). destruct (IHa x Ex) as [-> Hx]; [intros k w Hk Hw; eapply Hf; [apply in_or_app; left; exact Hk|exact Hw]|].
    assert (Hv : forwards m) by (eapply (Hf (TkUnknown m)); [apply in_or_app; right; now left|now left]).
    now apply missing_operator_build.
Qed.

(** ** Whole rows *)
Lemma next_none_not_some e st i l st' : next g e (fst (st, i)) (snd (st, i)) = Ok None -> lexes g e (st, i) l st' -> l = [].
Proof. intros H L. inv L; [reflexivity|]. cbn [fst snd] in *. congruence. Qed.
Lemma lexes_det e st l i l' i' : lexes g e st l (Operator, i) -> next g e Operator i = Ok None ->
  lexes g e st l' (Operator, i') -> next g e Operator i' = Ok None -> l' = l.
Proof.
  intros L. revert l'. remember (Operator, i) as st1. induction L as [st|st k st1 l st2 Hn L IH]; intros l' E L' E'.
  - subst. now apply next_none_not_some in L'.
  - inv L'.
    + cbn [fst snd] in Hn. congruence.
    + rewrite Hn in H. inv H. f_equal. auto.
Qed.
Theorem parse_respects doc n : wf_row doc -> parse g doc = Ok n ->
  exists t, tokens_of g doc (flatten t) /\ respects t /\ build t = n.
Proof.
  intros Hwf H. unfold parse, parse_row_with in H. apply bind_ok in H as ([[ended m] i]&E&H). destruct (at_end i); [|discriminate]. inv H.
  change (0, doc) with (inp doc 0) in E.
  destruct (pratt_parse_ok Htok Hcont (Nat.le_refl (S (row_size doc))) (0, Weak) EndInput Hwf (Nat.le_0_l _) (Nat.lt_succ_diag_r _)) as (en&m&p&E'&_&_&_&_&Hm&_).
  rewrite E in E'. inv E'. rewrite (Hm eq_refl) in *. destruct (@pratt_parse_sound _ doc 0 _ _ _ _ _ Hwf (Nat.le_0_l _) (Nat.lt_succ_diag_r _) E) as (t&L&B&Rt&_&St).
  exists t. split; [|split; [exact Rt|]].
  - exists (inp doc p). split; [exact L|exact St].
  - symmetry. apply assemble_build; [exact B|]. eapply (lexes_forwards Hwf L). exists 0. split; [reflexivity|lia].
Qed.
(** The same inside of brackets. *)
Definition bracket_leaf (s : str) (p : nat) : SyntaxNode := mkSyntax operator_rule_name (Leaf LOperator [s]) p (S p).
Theorem brackets_respect row pos a b c i' : wf_row row -> pos <= length row ->
  parse_token g (token_parser g (inp row pos)) (TBrackets a b) (inp row pos) = Ok (Some (c, i')) ->
  exists t p, lexes g (EndSymbol b) (Operand, inp row (S pos)) (flatten t) (Operator, inp row p) /\ next g (EndSymbol b) Operator (inp row p) = Ok None /\
    respects t /\ c = Children [bracket_leaf a pos; build t; bracket_leaf b p] /\ i' = inp row (S p).
Proof.
  intros Hwf Hp H. cbn [parse_token] in H. destruct (just_symbol a (inp row pos)) as [[l i1]|] eqn:Ea; [|discriminate]. apply just_symbol_inp in Ea as (->&->&Ra).
  pose proof (reads_le Hp Ra) as Hlt. cbn [length] in Hlt. rewrite Nat.add_1_r in Hlt.
  assert (Hs : row_size (skipn (S pos) row) < row_size (skipn pos row)) by (pose proof (@size_skipn row pos (S pos)); lia).
  unfold token_parser in H. cbn [inp snd] in H. change (S pos, skipn (S pos) row) with (inp row (S pos)) in H.
  destruct (pratt_parse_ok Htok Hcont (Nat.le_refl (row_size (skipn pos row))) (0, Weak) (EndSymbol b) Hwf Hlt Hs) as (en&m&p&E&_&Hp'&C&_&Hm&_).
  rewrite E in H. cbn [bind] in H. rewrite (Hm eq_refl) in *.
  destruct (@pratt_parse_sound _ row (S pos) _ _ _ _ _ Hwf Hlt Hs E) as (t&L&B&Rt&_&St).
  destruct (just_symbol b (inp row p)) as [[r i3]|] eqn:Eb; [|discriminate]. apply just_symbol_inp in Eb as (->&->&Rb).
  destruct (assemble_build B) as [Em _]; [eapply (lexes_forwards Hwf L); exists (S pos); auto|]. subst m.
  exists t, p. split; [exact L|]. split; [exact St|]. split; [exact Rt|]. cbn in H. inv H. auto.
Qed.
Theorem parse_complete doc t : wf_row doc -> tokens_of g doc (flatten t) -> respects t -> parse g doc = Ok (build t).
Proof.
  intros Hwf (i&L&En) Rt. destruct (parse_covers Htok Hcont Hwf) as (n&E&_). destruct (parse_respects Hwf E) as (t'&(i'&L'&En')&Rt'&B').
  assert (t' = t) as <-. { apply respects_unique; auto. eapply lexes_det; eauto. }
  now rewrite E, <- B'.
Qed.
End Sound.
