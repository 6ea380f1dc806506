(** How formulas are drawn (C80, C81). *)
From Coq Require Import String.
From Verif Require Import Base Str Grid Node NameMap Syntax Pratt Grammar Render SpecFormula SpecPicture BaseFacts GridFacts RenderFacts FormulaFacts PictureFacts Samples PropsFormula PropsRender.
Open Scope list_scope.
Open Scope nat_scope.

(** A conventionally written formula can be drawn exactly if its fractions and roots have two rows and there are no
    spaces after scripts. *)
Theorem C80_drawn : forall xs xc before f, classes_ok xs xc -> spelled xs xc f -> conventional 0 0 f ->
  (exists x, draw xs xc (spaces before ++ written f) = Ok x) <-> drawable f.
Proof.
  intros xs xc before f HC Hs Hc. pose proof (C67_formulas xs xc before f HC Hs Hc) as E. destruct (picture_ok Hs before 0 None no_options) as [A B]. split.
  - intros [x H]. apply draw_inv in H as (n&En&H). rewrite E in En. injection En as <-. now apply B in H.
  - intros H. destruct (A H) as [x Hx]. exists x. exact (draw_ok _ _ _ _ _ E Hx).
Qed.
Print Assumptions C80_drawn.
(** What is drawn is exactly the picture of the formula: every tag, every attribute, every text and their nesting. *)
Theorem C80_picture : forall xs xc before f x, classes_ok xs xc -> spelled xs xc f -> conventional 0 0 f ->
  draw xs xc (spaces before ++ written f) = Ok x -> get_elements x = picture before f.
Proof.
  intros xs xc before f x HC Hs Hc H. pose proof (C67_formulas xs xc before f HC Hs Hc) as E. destruct (picture_ok Hs before 0 None no_options) as [_ B].
  apply draw_inv in H as (n&En&H). rewrite E in En. injection En as <-. now apply B in H.
Qed.
Print Assumptions C80_picture.
(** [arithmetic] and [calculus] without spaces after scripts *)
Example C80_case : drawable (squeeze arithmetic) /\ drawable (squeeze calculus) /\ ~ drawable calculus /\
  exists x, draw ascii_letter ascii_continue (written (squeeze arithmetic)) = Ok x /\ get_elements x = picture 0 (squeeze arithmetic) /\
    existsb (fun d => match d with DomElement Tmrow false _ => true | _ => false end) (get_elements x) = true.
Proof.
  split; [cbn; intuition|]. split; [cbn; intuition congruence|]. split; [cbn; intuition discriminate|]. eexists. split; [vm_compute; reflexivity|]. split; vm_compute; reflexivity.
Qed.

(** ** Brackets *)
(** All brackets grow with what is in them. *)
Fixpoint brackets_grow (d : Dom) : Prop :=
  match d with
  | DomText _ => True
  | DomElement tag stretchy l => (l = [DomText (lit "(")] \/ l = [DomText (lit ")")] -> stretchy = true) /\ fold_right (fun d rest => brackets_grow d /\ rest) True l
  end.
(** A formula in which nothing is applied to something *)
Fixpoint no_calls (f : Formula) : Prop :=
  let scripts := fold_right (fun '(_, _, a, _) rest => no_calls a /\ rest) True in
  match f with
  | FAtom (ABrackets _ a) _ => no_calls a
  | FAtom (ACells _ _ cells) _ => fold_right (fun '(_, a) rest => no_calls a /\ rest) True cells
  | FAtom _ _ => True
  | FPrefix _ _ s a => scripts s /\ no_calls a
  | FInfix a _ _ s b => no_calls a /\ scripts s /\ no_calls b
  | FPostfix a op _ => no_calls a /\ match op with PFactorial => True | PCall | PApply _ _ => False | PScript _ _ b => no_calls b end
  end.
Definition grows (d : Dom) : Prop := brackets_grow d /\ match d with DomText _ => False | _ => True end.
Lemma grows_element tag b l : Forall grows l -> grows (DomElement tag b l).
Proof.
  intros H. split; [|exact I]. cbn [brackets_grow]. split.
  - intros [->| ->]; inversion H as [|d t Hd _]; destruct (proj2 Hd).
  - induction H as [|d l [Hd _] _ IH]; [exact I|]. split; assumption.
Qed.
Lemma grows_texts tag b l : (b = false -> l <> [lit "("] /\ l <> [lit ")"]) -> grows (texts tag b l).
Proof.
  intros H. split; [|exact I]. unfold texts. cbn [brackets_grow]. split.
  - intros E. destruct b; [reflexivity|]. destruct (H eq_refl) as [H1 H2]. destruct l as [|x [|y l]]; try (destruct E as [E|E]; discriminate E). destruct E as [E|E]; injection E as ->; contradiction.
  - clear H. induction l; cbn; auto.
Qed.
Lemma grows_one l : Forall grows l -> grows (one l).
Proof. intros H. destruct l as [|d [|d' l]]; [apply grows_element, H|now inv H|apply grows_element, H]. Qed.
Lemma grows_gap k : Forall grows (gap k).
Proof. destruct k; constructor; [|constructor]. apply grows_texts. intros _. cbn. split; discriminate. Qed.
Lemma grows_gaps before l after : Forall grows l -> Forall grows (with_gaps before l after).
Proof.
  intros H. assert (W : Forall grows [mrow (gap before ++ one l :: gap after)]).
  { constructor; [|constructor]. apply grows_element, Forall_app. split; [apply grows_gap|]. constructor; [now apply grows_one|apply grows_gap]. }
  unfold with_gaps. destruct before; [destruct after|]; assumption.
Qed.
Lemma grows_framed d : grows d -> Forall grows (framed d).
Proof. intros H. assert (P : grows phantom) by (apply grows_element; constructor). repeat constructor; try apply P; apply H. Qed.
Lemma grows_mo s : s <> lit "(" -> s <> lit ")" -> Forall grows (mo false s).
Proof. intros H1 H2. constructor; [|constructor]. apply grows_texts. intros _. split; congruence. Qed.
Definition grown (f : Formula) : Prop := forall before, Forall grows (picture before f).
Lemma grows_script l u b a : Forall grows l -> grown a -> Forall grows (script_picture l u b a).
Proof.
  intros Hl Ha. constructor; [|constructor]. apply grows_element. constructor; [now apply grows_one|]. constructor; [|constructor]. apply grows_one, grows_framed, grows_element.
  constructor; [|constructor]. apply grows_one, Ha.
Qed.
Lemma grows_scripts s : (forall f, in_scripts f s -> grown f) -> forall l, Forall grows l -> Forall grows (scripts_picture l s).
Proof.
  induction s as [|[[[u b] a] k] s IH]; intros Hs l Hl; [exact Hl|]. cbn [scripts_picture fold_left]. apply IH; [intros f (u'&b'&k'&Hf); apply Hs; exists u', b', k'; now right|].
  apply grows_script; [exact Hl|]. apply Hs. exists u, b, k. now left.
Qed.
Lemma grows_lines w l : Forall grows l -> Forall grows (table_lines w l).
Proof.
  intros H. apply Forall_forall. intros d Hd. apply in_map_iff in Hd as (r&<-&_). apply grows_element, Forall_forall. intros c Hc. apply in_map_iff in Hc as (e&<-&He).
  apply grows_element. constructor; [|constructor]. rewrite Forall_forall in H. apply H. rewrite <- (firstn_skipn (r * w) l). apply in_or_app. right. rewrite <- (firstn_skipn w (skipn (r * w) l)). apply in_or_app. left. exact He.
Qed.
Lemma picture_grows xs xc f : classes_ok xs xc -> spelled xs xc f -> no_calls f -> grown f.
Proof.
  intros HC. induction f as [a k IHa|op k s a IHs IHa|a op k s b IHa IHs IHb|a op k IHa IHo] using formula_induction; intros Hs Hn before.
  - apply spelled_atom in Hs as [Hs Hi]. cbn [picture]. apply grows_gaps. destruct a as [s l|c l d|c|l| |b a|v w cells].
    + constructor; [|constructor]. apply grows_texts. intros _. destruct Hs as ((c&t&->&Hx&_)&_). destruct HC as [HC _].
      split; intros E; injection E as -> _ _; [destruct (HC 40%N) as [E _]|destruct (HC 41%N) as [E _]]; try (cbn; tauto); congruence.
    + constructor; [|constructor]. apply grows_texts. intros _. destruct Hs as (Hd&_). unfold digit in Hd. split; intros E; cbn in E; injection E as -> _; lia.
    + constructor; [|constructor]. apply grows_texts. intros _. destruct c; split; discriminate.
    + constructor; [|constructor]. apply grows_texts. intros _. split; discriminate.
    + constructor; [|constructor]. apply grows_element. repeat constructor; discriminate.
    + constructor; [|constructor]. apply grows_element. cbn [app mo]. constructor; [apply grows_texts; discriminate|]. constructor; [|constructor; [apply grows_texts; discriminate|constructor]].
      apply grows_one, IHa; [reflexivity|now apply Hi|exact Hn].
    + assert (F : Forall grows (map (fun '(b, a) => one (picture b a)) cells)).
      { apply Forall_forall. intros d Hd. apply in_map_iff in Hd as ([b a]&<-&Ha). assert (Hin : in_atom a (ACells v w cells)) by (exists b; exact Ha). apply grows_one, IHa; [exact Hin|now apply Hi|].
        cbn [no_calls] in Hn. rewrite (fold_cells no_calls) in Hn. apply Hn. exists b. exact Ha. }
      apply grows_framed. destruct v; apply grows_element; try assumption; [now apply Forall_rev| | |]; now apply grows_lines.
  - apply spelled_prefix in Hs as (Hs&Ha&_). cbn [no_calls] in Hn. rewrite (fold_scripts no_calls) in Hn. destruct Hn as [N1 N2]. cbn [picture]. constructor; [|constructor]. apply grows_element.
    constructor; [|constructor; [apply grows_one; now apply IHa|constructor]]. apply grows_one. apply (@grows_scripts s); [auto|]. apply grows_gaps.
    apply grows_mo; destruct op; discriminate.
  - apply spelled_infix in Hs as (Ha&Hs&Hb). cbn [no_calls] in Hn. rewrite (fold_scripts no_calls) in Hn. destruct Hn as (N1&N2&N3). cbn [picture]. constructor; [|constructor]. apply grows_element.
    constructor; [apply grows_one; now apply IHa|]. constructor; [|constructor; [apply grows_one; now apply IHb|constructor]]. apply grows_one. apply (@grows_scripts s); [auto|]. apply grows_gaps.
    apply grows_mo; destruct op; discriminate.
  - apply spelled_postfix in Hs as (Ha&Ho). destruct Hn as [N1 N2]. destruct op as [| |b x|u b x]; try contradiction; cbn [picture].
    + constructor; [|constructor]. apply grows_element. constructor; [apply grows_one; now apply IHa|]. constructor; [|constructor]. apply grows_one, grows_gaps, grows_mo; discriminate.
    + apply (@grows_script (picture before a) u b x); [now apply IHa|]. apply IHo; [reflexivity|now apply Ho|exact N2].
Qed.
(** The brackets of every formula without function application grow. *)
Theorem C81_grow_partial : forall xs xc before f x, classes_ok xs xc -> spelled xs xc f -> conventional 0 0 f -> no_calls f ->
  draw xs xc (spaces before ++ written f) = Ok x -> Forall brackets_grow (get_elements x).
Proof.
  intros xs xc before f x HC Hs Hc Hn H. rewrite (C80_picture xs xc before f x HC Hs Hc H). eapply Forall_impl; [|exact (picture_grows xs xc f HC Hs Hn before)]. intros d [Hd _]. exact Hd.
Qed.
Print Assumptions C81_grow_partial.
Example C81_case : no_calls (FInfix (FAtom (ABrackets 0 (FAtom (ACells Fraction 1 [(0, name "a" 0); (0, name "b" 0)]) 0)) 0) Plus 0 [] (name "x" 0)).
Proof. cbn. tauto. Qed.
(** The other way round: what is inside grows if the whole does. *)
Notation all_grow := (Forall brackets_grow).
Lemma grow_inside tag b l : brackets_grow (DomElement tag b l) -> all_grow l.
Proof. intros [_ H]. induction l as [|d l IH]; [constructor|]. destruct H as [H1 H2]. constructor; [exact H1|exact (IH H2)]. Qed.
Lemma grow_single tag b l : all_grow [DomElement tag b l] -> all_grow l.
Proof. intros H. inversion H as [|? ? Hd _]. exact (grow_inside _ _ _ Hd). Qed.
Lemma grow_in l d : all_grow l -> In d l -> brackets_grow d.
Proof. intros H Hd. rewrite Forall_forall in H. exact (H _ Hd). Qed.
Lemma grow_one l : brackets_grow (one l) -> all_grow l.
Proof. destruct l as [|d [|d' l]]; intros H; [constructor|constructor; [exact H|constructor]|exact (grow_inside _ _ _ H)]. Qed.
Lemma grow_gaps before l after : all_grow (with_gaps before l after) -> all_grow l.
Proof.
  assert (W : all_grow [mrow (gap before ++ one l :: gap after)] -> all_grow l).
  { intros H. apply grow_single in H. apply grow_one, (grow_in _ _ H). apply in_or_app. right. now left. }
  unfold with_gaps. destruct before; [destruct after|]; auto.
Qed.
Lemma grow_framed d : all_grow (framed d) -> brackets_grow d.
Proof. intros H. apply (grow_in _ _ H). right. now left. Qed.
Lemma grow_script l u b a : all_grow (script_picture l u b a) -> all_grow l /\ all_grow (picture b a).
Proof.
  intros H. apply grow_single in H. split; [apply grow_one, (grow_in _ _ H); now left|].
  assert (E : brackets_grow (one (framed (mrow [one (picture b a)])))) by (apply (grow_in _ _ H); right; now left).
  apply grow_one, grow_framed, grow_inside in E. apply grow_one, (grow_in _ _ E). now left.
Qed.
Lemma grow_scripts s : forall l, all_grow (scripts_picture l s) -> all_grow l /\ forall f, in_scripts f s -> exists b, all_grow (picture b f).
Proof.
  induction s as [|[[[u b] a] k] s IH]; intros l H; [split; [exact H|intros f (?&?&?&[])]|].
  cbn [scripts_picture fold_left] in H. apply IH in H as [H1 H2]. apply grow_script in H1 as [H1 H3]. split; [exact H1|].
  intros f (u'&b'&k'&[E|Hf]); [injection E as <- <- <- <-; exists b; exact H3|]. apply H2. exists u', b', k'. exact Hf.
Qed.
Lemma grow_lines w l : 0 < w -> List.length l mod w = 0 -> all_grow (table_lines w l) -> all_grow l.
Proof.
  intros Hw Hm H. apply Forall_forall. intros d Hd. apply In_nth_error in Hd as (i&Ei). assert (Hi : i < List.length l) by (apply nth_error_Some; congruence).
  pose proof (Nat.div_mod (List.length l) w ltac:(lia)) as D. pose proof (Nat.div_mod i w ltac:(lia)) as D'. pose proof (Nat.mod_upper_bound i w ltac:(lia)) as M.
  assert (Hr : i / w < List.length l / w) by (apply Nat.div_lt_upper_bound; [lia|]; pose proof (Nat.div_str_pos (List.length l) w); nia).
  assert (Hline : In (DomElement Tmtr false (map (fun d => DomElement Tmtd false [d]) (firstn w (skipn (i / w * w) l)))) (table_lines w l)).
  { unfold table_lines. apply in_map_iff. exists (i / w). split; [reflexivity|]. apply in_seq. lia. }
  apply (grow_in _ _ H), grow_inside in Hline.
  assert (Hcell : In (DomElement Tmtd false [d]) (map (fun d => DomElement Tmtd false [d]) (firstn w (skipn (i / w * w) l)))).
  { apply (in_map (fun d => DomElement Tmtd false [d])). apply nth_error_In with (n := i mod w). rewrite GridFacts.nth_error_firstn' by exact M. rewrite GridFacts.nth_error_skipn'. rewrite <- Ei. f_equal. lia. }
  apply (grow_in _ _ Hline), grow_inside in Hcell. inversion Hcell. assumption.
Qed.
Lemma picture_calls xs xc f : spelled xs xc f -> forall before, all_grow (picture before f) -> no_calls f.
Proof.
  induction f as [a k IHa|op k s a IHs IHa|a op k s b IHa IHs IHb|a op k IHa IHo] using formula_induction; intros Hs before H; cbn [picture] in H.
  - apply spelled_atom in Hs as [Hs Hi]. apply grow_gaps in H. destruct a as [s l|c l d|c|l| |b a|v w cells]; try exact I.
    + apply grow_single in H. cbn [no_calls]. apply (IHa a eq_refl (Hi _ eq_refl) b). apply grow_one, (grow_in _ _ H). right. now left.
    + cbn [no_calls]. rewrite (fold_cells no_calls). intros f [b Hf]. destruct Hs as (_&Hw&_&Hm).
      assert (F : all_grow (map (fun '(b, a) => one (picture b a)) cells)).
      { apply grow_framed in H. destruct v; apply grow_inside in H; [exact H|rewrite <- (rev_involutive (map _ cells)); now apply Forall_rev| | |]; (apply (grow_lines w); [exact Hw|rewrite map_length; exact Hm|exact H]). }
      apply (IHa f (ex_intro _ b Hf) (Hi _ (ex_intro _ b Hf)) b). apply grow_one, (grow_in _ _ F). apply in_map_iff. exists (b, f). auto.
  - apply spelled_prefix in Hs as (Hs&Ha&_). cbn [no_calls]. rewrite (fold_scripts no_calls). apply grow_single in H.
    assert (H1 := grow_in _ _ H (or_introl eq_refl)). apply grow_one in H1. apply (grow_scripts s) in H1 as [_ H1].
    assert (H2 := grow_in _ _ H (or_intror (or_introl eq_refl))). apply grow_one in H2. split; [|exact (IHa Ha 0 H2)].
    intros f Hf. destruct (H1 f Hf) as [b Hb]. exact (IHs f Hf (Hs f Hf) b Hb).
  - apply spelled_infix in Hs as (Ha&Hs&Hb). cbn [no_calls]. rewrite (fold_scripts no_calls). apply grow_single in H.
    assert (H0 := grow_in _ _ H (or_introl eq_refl)). apply grow_one in H0.
    assert (H1 := grow_in _ _ H (or_intror (or_introl eq_refl))). apply grow_one in H1. apply (grow_scripts s) in H1 as [_ H1].
    assert (H2 := grow_in _ _ H (or_intror (or_intror (or_introl eq_refl)))). apply grow_one in H2. split; [exact (IHa Ha before H0)|]. split; [|exact (IHb Hb 0 H2)].
    intros f Hf. destruct (H1 f Hf) as [b' Hb']. exact (IHs f Hf (Hs f Hf) b' Hb').
  - apply spelled_postfix in Hs as (Ha&Ho). assert (C : forall l, brackets_grow (one (with_gaps 0 [mrow (mo false (lit "(") ++ l)] k)) -> False).
    { intros l C. apply grow_one, grow_gaps, grow_single in C. assert (C' := grow_in _ _ C (or_introl eq_refl)). destruct C' as [C' _]. specialize (C' (or_introl eq_refl)). discriminate C'. }
    destruct op as [| |b x|u b x]; cbn [no_calls].
    + apply grow_single in H. split; [|exact I]. apply (IHa Ha before), grow_one, (grow_in _ _ H). now left.
    + exfalso. apply grow_single in H. apply (C (mo false (lit ")"))), (grow_in _ _ H). right. now left.
    + exfalso. apply grow_single in H. apply (C (one (picture b x) :: mo false (lit ")"))), (grow_in _ _ H). right. now left.
    + apply grow_script in H as [H1 H2]. split; [exact (IHa Ha before H1)|exact (IHo x eq_refl (Ho _ eq_refl) b H2)].
Qed.
(** All brackets grow exactly if nothing is applied to something. *)
Theorem C81_exact : forall xs xc before f x, classes_ok xs xc -> spelled xs xc f -> conventional 0 0 f ->
  draw xs xc (spaces before ++ written f) = Ok x -> (Forall brackets_grow (get_elements x) <-> no_calls f).
Proof.
  intros xs xc before f x HC Hs Hc H. split; [|intros Hn; exact (C81_grow_partial xs xc before f x HC Hs Hc Hn H)].
  rewrite (C80_picture xs xc before f x HC Hs Hc H). apply (picture_calls xs xc f Hs).
Qed.
Print Assumptions C81_exact.
(** Brackets around a fraction grow, those of f(a/b) do not. *)
Theorem C81_refuted : exists f x, spelled ascii_letter ascii_continue f /\ conventional 0 0 f /\ draw ascii_letter ascii_continue (written f) = Ok x /\ ~ Forall brackets_grow (get_elements x).
Proof.
  exists (FPostfix (name "f" 0) (PApply 0 (FAtom (ACells Fraction 1 [(0, name "a" 0); (0, name "b" 0)]) 0)) 0). eexists.
  split; [spell|]. split; [cbn; tauto|]. split; [vm_compute; reflexivity|]. intros F. vm_compute in F. inversion F as [|d l Hd _].
  cbn in Hd. decompose [and] Hd. match goal with H : _ \/ _ -> false = true |- _ => specialize (H (or_introl eq_refl)); discriminate H end.
Qed.
Print Assumptions C81_refuted.
