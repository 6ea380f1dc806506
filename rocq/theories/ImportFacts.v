(** Reading MathML: when it throws, what the document looks like. *)
From Coq Require Import String Permutation.
From Verif Require Import Base Str Grid Node Spec SpecEditor SpecSafety SpecRender SpecImport BaseFacts TreeFacts OpFacts SafetyFacts Render FromMathML NameMapFacts.
Open Scope list_scope.
Open Scope nat_scope.
Set Implicit Arguments.
Unset Strict Implicit.

Section Xml_ind.
Variable P : Xml -> Prop.
Hypothesis Htext : forall s, P (XmlText s).
Hypothesis Helement : forall tag nodes, (forall c, In c nodes -> P c) -> P (XmlElement tag nodes).
Fixpoint xml_ind' (x : Xml) : P x :=
  match x with
  | XmlText s => Htext s
  | XmlElement tag nodes =>
      Helement tag ((fix go l : forall c, In c l -> P c :=
        match l with
        | [] => fun c H => match H with end
        | y :: l => fun c H => match H with or_introl E => eq_ind y P (xml_ind' y) c E | or_intror H => go l c H end
        end) nodes)
  end.
End Xml_ind.

Lemma on_elements_map A (f : Xml -> A) nodes : on_elements f nodes = map f (elements nodes).
Proof. induction nodes as [|[s|tag l] nodes IH]; cbn; auto. f_equal. exact IH. Qed.
Lemma in_elements nodes c : In c (elements nodes) -> In c nodes /\ exists tag l, c = XmlElement tag l.
Proof. unfold elements. rewrite filter_In. intros [H E]. split; [exact H|]. destruct c; [discriminate|eauto]. Qed.

Lemma tag_is_iff tag names : tag_is tag names = true <-> tag_in tag names.
Proof.
  unfold tag_is, tag_in. rewrite existsb_exists. split; intros (n&Hn&E); exists n; (split; [exact Hn|]); now apply str_eqb_eq.
Qed.
Lemma reading_ok A B (r : Reading A) (f : A -> Reading B) b e : reading r f = Ok (b, e) ->
  exists a e1 e2, r = Ok (a, e1) /\ f a = Ok (b, e2) /\ e = e1 ++ e2.
Proof. unfold reading. intros H. apply bind_ok in H as ([a e1]&Ea&H). apply bind_ok in H as ([b' e2]&Eb&H). inv H. eauto 6. Qed.
Lemma reading_panic A B (r : Reading A) (f : A -> Reading B) k : reading r f = Panic k ->
  r = Panic k \/ exists a e, r = Ok (a, e) /\ f a = Panic k.
Proof. unfold reading. destruct r as [[a e]|k']; cbn [bind]; intros H; [|left; congruence]. right. exists a, e. split; [reflexivity|]. destruct (f a) as [[b e']|k']; cbn [bind] in H; congruence. Qed.
Lemma Forall2_weaken A B (R S : A -> B -> Prop) l l' : (forall a b, R a b -> S a b) -> Forall2 R l l' -> Forall2 S l l'.
Proof. intros H F. induction F; constructor; auto. Qed.
Lemma read_all_ok A (l : list (Reading A)) a e : read_all l = Ok (a, e) ->
  Forall2 (fun r a => exists e', r = Ok (a, e') /\ (e = [] -> e' = [])) l a.
Proof.
  revert a e. induction l as [|r l IH]; cbn [read_all]; intros a e H; [inv H; constructor|].
  apply reading_ok in H as (x&e1&e2&Ex&H&->). apply reading_ok in H as (y&e3&e4&Ey&H&->). inv H. constructor.
  - exists e1. split; [reflexivity|]. intros H. now apply app_eq_nil in H as [H _].
  - specialize (IH _ _ Ey). eapply Forall2_weaken; [|exact IH]. intros r' a' (e'&E&H). exists e'. split; [exact E|]. intros H'. apply H. apply app_eq_nil in H' as [_ H']. now apply app_eq_nil in H' as [H' _].
Qed.
Lemma read_all_panic A (l : list (Reading A)) k : read_all l = Panic k -> exists r, In r l /\ r = Panic k.
Proof.
  induction l as [|r l IH]; cbn [read_all]; intros H; [discriminate|]. apply reading_panic in H as [H|(a&e&Ea&H)]; [exists r; split; [now left|exact H]|].
  apply reading_panic in H as [H|(b&e'&Eb&H)]; [|discriminate]. destruct (IH H) as (r'&Hin&E). exists r'. split; [now right|exact E].
Qed.
Lemma read_all_total A (l : list (Reading A)) : (forall r, In r l -> exists a, r = Ok a) -> exists a, read_all l = Ok a.
Proof.
  intros H. destruct (read_all l) as [a|k] eqn:E; [eauto|]. apply read_all_panic in E as (r&Hin&->). destruct (H _ Hin). discriminate.
Qed.

Section Import.
Variable normalize : str -> str.
Variable segment : str -> list str.
Notation layout := (to_math_layout normalize segment).
Notation sym s := (Symbol (normalize s)).

(** Every way to read an element that does not throw *)
Definition layout_of (e : list ImportError) (c : Xml) (row : InputRow) : Prop :=
  exists l e', layout c = Ok (l, e') /\ row = wrap_in_row l /\ (e = [] -> e' = []).
Definition texts_of (x : Xml) : InputRow := map (fun s => sym s) (segment (trim (text_content x))).
(** The scripts that follow the first part *)
Definition scripts_of (tag : str) : list InputNodeVariant :=
  if tag_is tag ["msub"; "munder"]%string then [Sub] else if tag_is tag ["msup"; "mover"]%string then [Sup] else [Sub; Sup].
Definition script_node (v : InputNodeVariant) (row : InputRow) : InputNode := Container v (mkGrid [row] 1).
Inductive view (x : Xml) (e : list ImportError) : InputRow -> Prop :=
| view_text tag nodes : x = XmlElement tag nodes -> tag_in tag ["mi"; "mn"; "mo"]%string -> view x e (texts_of x)
| view_quoted tag nodes : x = XmlElement tag nodes -> tag_in tag ["mtext"; "ms"]%string -> view x e ([sym [34%N]] ++ texts_of x ++ [sym [34%N]])
| view_flat tag nodes rows : x = XmlElement tag nodes -> tag_in tag ["math"; "mrow"; "mtd"]%string -> Forall2 (layout_of e) (elements nodes) rows ->
    view x e (concat rows)
| view_sqrt nodes rows : x = XmlElement (lit "msqrt") nodes -> Forall2 (layout_of e) (elements nodes) rows ->
    view x e [Container RootV (mkGrid [[sym (lit "2")]; concat rows] 2)]
| view_semantics nodes c l row : x = XmlElement (lit "semantics") nodes -> elements nodes = c :: l -> layout_of e c row -> view x e row
| view_frac nodes a b ra rb : x = XmlElement (lit "mfrac") nodes -> elements nodes = [a; b] -> layout_of e a ra -> layout_of e b rb ->
    view x e [Container Fraction (mkGrid [ra; rb] 1)]
| view_root nodes a b ra rb : x = XmlElement (lit "mroot") nodes -> elements nodes = [a; b] -> layout_of e a ra -> layout_of e b rb ->
    view x e [Container RootV (mkGrid [rb; ra] 2)]
| view_script tag nodes a v b ra rb : x = XmlElement tag nodes -> tag_in tag ["msub"; "msup"; "munder"; "mover"]%string -> scripts_of tag = [v] ->
    elements nodes = [a; b] -> layout_of e a ra -> layout_of e b rb -> view x e (ra ++ [script_node v rb])
| view_scripts tag nodes a b c ra rb rc : x = XmlElement tag nodes -> tag_in tag ["msubsup"; "munderover"]%string ->
    elements nodes = [a; b; c] -> layout_of e a ra -> layout_of e b rb -> layout_of e c rc -> view x e (ra ++ [script_node Sub rb; script_node Sup rc])
| view_table nodes lines width : x = XmlElement (lit "mtable") nodes -> table_shape nodes ->
    Forall2 (fun line rows => List.length rows = width /\ exists t cells, line = XmlElement t cells /\ List.length (elements cells) <= width /\
      Forall2 (layout_of e) (elements cells) (firstn (List.length (elements cells)) rows) /\ Forall (fun r => r = []) (skipn (List.length (elements cells)) rows)) (elements nodes) lines ->
    (0 < width -> exists t cells, In (XmlElement t cells) (elements nodes) /\ elements cells <> []) ->
    view x e [Container Table (mkGrid (concat lines) width)]
| view_style nodes : x = XmlElement (lit "mstyle") nodes -> view x e []
| view_error : e <> [] -> (forall c, ~ kept_child x c) -> ~ empty_table x -> view x e [sym (lit "Error")].

(** All tags *)
Definition all_tags : list string :=
  ["math"; "mrow"; "mtd"; "semantics"; "mtext"; "ms"; "mi"; "mn"; "mo"; "mfrac"; "msqrt"; "mroot"; "msub"; "msup"; "msubsup"; "munder"; "mover"; "munderover"; "mtable"; "mstyle"]%string.
Lemma lit_inj_b names a b : In a names -> In b names -> forallb (fun a => forallb (fun b => negb (str_eqb (lit a) (lit b)) || String.eqb a b) names) names = true -> lit a = lit b -> a = b.
Proof.
  intros Ha Hb F E. rewrite forallb_forall in F. apply F in Ha. rewrite forallb_forall in Ha. apply Ha in Hb. rewrite E in Hb. rewrite (proj2 (str_eqb_eq _ _) eq_refl) in Hb. now apply String.eqb_eq in Hb.
Qed.
Lemma tag_in_lit a names : In a all_tags -> incl names all_tags -> tag_in (lit a) names -> In a names.
Proof. intros Ha Hi (b&Hb&E). apply (@lit_inj_b all_tags) in E; [now subst|exact Ha|auto|vm_compute; reflexivity]. Qed.

Ltac tags := let n := fresh in let H := fresh in intros (n&H&->); cbn [In] in H; repeat (destruct H as [<-|H]); [..|destruct H].
Lemma layout_flat tag nodes : tag_in tag ["math"; "mrow"; "mtd"]%string -> layout (XmlElement tag nodes) =
  (r <~ (l <~ read_all (on_elements layout nodes) ;; read (wrap_in_row (Many (flat_map as_array l)))) ;; read (One (ItemRow r))).
Proof. tags; reflexivity. Qed.
Lemma layout_semantics nodes : 0 < List.length (on_elements layout nodes) -> layout (XmlElement (lit "semantics") nodes) = nth 0 (on_elements layout nodes) throw.
Proof. intros H. cbn [to_math_layout]. change (tag_is (lit "semantics") ["math"; "mrow"; "mtd"]%string) with false. change (tag_is (lit "semantics") ["semantics"]%string) with true. apply Nat.ltb_lt in H. rewrite H. reflexivity. Qed.
Lemma layout_semantics' nodes : List.length (on_elements layout nodes) = 0 -> layout (XmlElement (lit "semantics") nodes) = Ok (One (ItemNode (sym (lit "Error"))), [UnknownElement (lit "semantics")]).
Proof. intros H. cbn [to_math_layout]. rewrite H. reflexivity. Qed.
Lemma layout_quoted tag nodes : tag_in tag ["mtext"; "ms"]%string -> layout (XmlElement tag nodes) =
  read (Many ([ItemNode (sym [34%N])] ++ text_symbols normalize segment (XmlElement tag nodes) ++ [ItemNode (sym [34%N])])).
Proof. tags; reflexivity. Qed.
Lemma layout_text tag nodes : tag_in tag ["mi"; "mn"; "mo"]%string -> layout (XmlElement tag nodes) = read (Many (text_symbols normalize segment (XmlElement tag nodes))).
Proof. tags; reflexivity. Qed.
Definition row_at (nodes : list Xml) k : Reading InputRow := l <~ nth k (on_elements layout nodes) throw ;; read (wrap_in_row l).
Definition expect (tag : str) (nodes : list Xml) := expect_children normalize tag (List.length (on_elements layout nodes)).
Lemma layout_frac nodes : layout (XmlElement (lit "mfrac") nodes) =
  expect (lit "mfrac") nodes 2 (cells <~ read_all (map (fun c => l <~ c ;; read (wrap_in_row l)) (on_elements layout nodes)) ;; read (One (xml_container Fraction cells 1))).
Proof. reflexivity. Qed.
Lemma layout_sqrt nodes : layout (XmlElement (lit "msqrt") nodes) =
  (r <~ (l <~ read_all (on_elements layout nodes) ;; read (wrap_in_row (Many (flat_map as_array l)))) ;; read (One (xml_container RootV [[sym (lit "2")]; r] 2))).
Proof. reflexivity. Qed.
Lemma layout_root nodes : layout (XmlElement (lit "mroot") nodes) =
  expect (lit "mroot") nodes 2 (b <~ row_at nodes 1 ;; a <~ row_at nodes 0 ;; read (One (xml_container RootV [b; a] 2))).
Proof. reflexivity. Qed.
Lemma layout_script tag nodes v : tag_in tag ["msub"; "msup"]%string -> scripts_of tag = [v] -> layout (XmlElement tag nodes) =
  (base <~ nth 0 (on_elements layout nodes) throw ;; expect tag nodes 2 (b <~ row_at nodes 1 ;; read (Many (as_array base ++ [xml_container v [b] 1])))).
Proof. tags; intros H; vm_compute in H; inv H; reflexivity. Qed.
Lemma layout_subsup nodes : layout (XmlElement (lit "msubsup") nodes) =
  (base <~ nth 0 (on_elements layout nodes) throw ;; expect (lit "msubsup") nodes 3 (b <~ row_at nodes 1 ;; c <~ row_at nodes 2 ;;
     read (Many (as_array base ++ [xml_container Sub [b] 1; xml_container Sup [c] 1])))).
Proof. reflexivity. Qed.
Lemma layout_under tag nodes v : tag_in tag ["munder"; "mover"]%string -> scripts_of tag = [v] -> layout (XmlElement tag nodes) =
  expect tag nodes 2 (a <~ row_at nodes 0 ;; b <~ row_at nodes 1 ;; read (Many (map ItemNode a ++ [xml_container v [b] 1]))).
Proof. tags; intros H; vm_compute in H; inv H; reflexivity. Qed.
Lemma layout_underover nodes : layout (XmlElement (lit "munderover") nodes) =
  expect (lit "munderover") nodes 3 (a <~ row_at nodes 0 ;; b <~ row_at nodes 1 ;; c <~ row_at nodes 2 ;; read (Many (map ItemNode a ++ [xml_container Sub [b] 1; xml_container Sup [c] 1]))).
Proof. reflexivity. Qed.
Definition table_shape_b (nodes : list Xml) : bool :=
  forallb (fun b => b) (on_elements (fun c => match c with
             | XmlElement tag cells => tag_is tag ["mtr"%string] && forallb (fun b => b) (on_elements (fun cc => match cc with XmlElement tag _ => tag_is tag ["mtd"%string] | XmlText _ => false end) cells)
             | XmlText _ => false end) nodes).
Definition table_lines (nodes : list Xml) : list (list (Reading MathLayout)) :=
  on_elements (fun c => match c with XmlElement _ cells => on_elements layout cells | XmlText _ => [] end) nodes.
Definition table_width (nodes : list Xml) : nat := fold_left Nat.max (map (@List.length _) (table_lines nodes)) 0.
Lemma layout_table nodes : layout (XmlElement (lit "mtable") nodes) =
  if table_shape_b nodes
  then cells <~ read_all (flat_map (table_line (table_width nodes)) (table_lines nodes)) ;; read (One (xml_container Table cells (table_width nodes)))
  else Ok (One (ItemNode (sym (lit "Error"))), [UnexpectedChildren]).
Proof. reflexivity. Qed.
Lemma layout_style nodes : layout (XmlElement (lit "mstyle") nodes) = read (Many []).
Proof. reflexivity. Qed.
Lemma layout_unknown tag nodes : tag_is tag all_tags = false -> layout (XmlElement tag nodes) = Ok (One (ItemNode (sym (lit "Error"))), [UnknownElement tag]).
Proof.
  intros H. cbn [to_math_layout]. assert (F : forall names, forallb (fun n => existsb (String.eqb n) all_tags) names = true -> tag_is tag names = false).
  { intros names Hn. destruct (tag_is tag names) eqn:E; [|reflexivity]. apply tag_is_iff in E as (n&Hi&->). rewrite forallb_forall in Hn. apply Hn in Hi. apply existsb_exists in Hi as (m&Hm&Em).
    apply String.eqb_eq in Em. subst m. rewrite <- H. symmetry. apply tag_is_iff. exists n. auto. }
  rewrite !F by reflexivity. reflexivity.
Qed.
Lemma tag_split tag : tag_is tag all_tags = false \/ tag_in tag ["mi"; "mn"; "mo"]%string \/ tag_in tag ["mtext"; "ms"]%string \/ tag_in tag ["math"; "mrow"; "mtd"]%string \/
  tag_in tag ["msub"; "msup"]%string \/ tag_in tag ["munder"; "mover"]%string \/
  In tag [lit "msqrt"; lit "semantics"; lit "mfrac"; lit "mroot"; lit "msubsup"; lit "munderover"; lit "mtable"; lit "mstyle"].
Proof.
  destruct (tag_is tag all_tags) eqn:E; [right|now left]. apply tag_is_iff in E as (n&H&->). unfold tag_in.
  cbn [In all_tags] in H. repeat (destruct H as [<-|H]; [cbn [In]; first
    [solve [left; eexists; split; [|reflexivity]; cbn; tauto]|solve [right; left; eexists; split; [|reflexivity]; cbn; tauto]
    |solve [right; right; left; eexists; split; [|reflexivity]; cbn; tauto]|solve [right; right; right; left; eexists; split; [|reflexivity]; cbn; tauto]
    |solve [right; right; right; right; left; eexists; split; [|reflexivity]; cbn; tauto]|solve [right; right; right; right; right; repeat (first [left; reflexivity|right])]]|]). destruct H.
Qed.

Lemma wrap_many l : wrap_in_row (Many (flat_map as_array l)) = concat (map wrap_in_row l).
Proof. unfold wrap_in_row. cbn [as_array]. induction l as [|x l IH]; [reflexivity|]. cbn [flat_map map concat]. now rewrite flat_map_app, IH. Qed.
Lemma wrap_items l : flat_map item_values (map ItemNode l) = l.
Proof. induction l as [|x l IH]; [reflexivity|]. cbn [map flat_map item_values app]. now rewrite IH. Qed.
Lemma wrap_texts x : flat_map item_values (text_symbols normalize segment x) = texts_of x.
Proof. unfold text_symbols, texts_of, xml_symbol. induction (segment _) as [|s l IH]; [reflexivity|]. cbn [map flat_map item_values app]. now rewrite IH. Qed.
Lemma nth_layout nodes k l e : nth k (on_elements layout nodes) throw = Ok (l, e) -> exists c, nth_error (elements nodes) k = Some c /\ layout c = Ok (l, e).
Proof.
  rewrite on_elements_map. generalize (elements nodes). clear nodes. induction k as [|k IH]; intros [|c nodes]; cbn; try discriminate; [eauto|auto].
Qed.
Lemma row_at_ok nodes k row e e' : row_at nodes k = Ok (row, e') -> (e = [] -> e' = []) -> exists c, nth_error (elements nodes) k = Some c /\ layout_of e c row.
Proof.
  unfold row_at. intros H He. apply reading_ok in H as (l&e1&e2&E&H&->). inv H. apply nth_layout in E as (c&Hc&E). exists c. split; [exact Hc|]. exists l, e1.
  split; [exact E|]. split; [reflexivity|]. intros H. apply He in H. now apply app_eq_nil in H as [H _].
Qed.
Lemma children_ok nodes ls e : read_all (on_elements layout nodes) = Ok (ls, e) -> Forall2 (layout_of e) (elements nodes) (map wrap_in_row ls).
Proof.
  intros H. apply read_all_ok in H. rewrite on_elements_map in H. revert ls H. generalize (elements nodes). clear nodes. induction l as [|c nodes IH]; intros ls H; inv H; [constructor|].
  cbn [map]. constructor; [|auto]. match goal with H : exists _, _ |- _ => destruct H as (e'&E&He) end. exists y, e'. auto.
Qed.
Lemma layout_of_weaken e e' c row : layout_of e c row -> (e' = [] -> e = []) -> layout_of e' c row.
Proof. intros (l&e1&E&->&H) H'. exists l, e1. auto. Qed.
Lemma expect_ok tag nodes n r l e : expect tag nodes n r = Ok (l, e) ->
  (List.length (elements nodes) = n /\ r = Ok (l, e)) \/ (List.length (elements nodes) <> n /\ e <> [] /\ l = One (ItemNode (sym (lit "Error")))).
Proof.
  unfold expect, expect_children. rewrite on_elements_map, map_length. destruct (_ =? _) eqn:E; intros H; [left|right]; [apply Nat.eqb_eq in E; auto|]. apply Nat.eqb_neq in E. inv H. split; [exact E|]. split; [discriminate|reflexivity].
Qed.
Lemma list_two A (l : list A) : List.length l = 2 -> exists a b, l = [a; b].
Proof. destruct l as [|a [|b [|c l]]]; try discriminate. eauto. Qed.
Lemma list_three A (l : list A) : List.length l = 3 -> exists a b c, l = [a; b; c].
Proof. destruct l as [|a [|b [|c [|d l]]]]; try discriminate. eauto. Qed.
Lemma parts_fun tag n m : parts tag n -> parts tag m -> n = m.
Proof.
  intros Hn Hm. inversion Hn as [t (a&Ha&Ea) Et En|t (a&Ha&Ea) Et En]; inversion Hm as [t2 (b&Hb&Eb) Et2 Em|t2 (b&Hb&Eb) Et2 Em]; try reflexivity; exfalso; subst t t2; rewrite Ea in Eb; clear - Ha Hb Eb;
  cbn [In] in Ha, Hb; repeat (destruct Ha as [<-|Ha]); try contradiction; repeat (destruct Hb as [<-|Hb]); try contradiction; vm_compute in Eb; discriminate.
Qed.
Ltac bad_tag := match goal with H : tag_in _ _ |- _ => let n := fresh in let E := fresh in destruct H as (n&H&E); cbn [In] in H; repeat (destruct H as [<-|H]); try contradiction; vm_compute in E; discriminate end.
Lemma no_kept tag nodes n c : parts tag n -> List.length (elements nodes) <> n -> ~ kept_child (XmlElement tag nodes) c.
Proof.
  intros Hp Hn Hk. inv Hk.
  - destruct Hp as [t H|t H]; destruct H as (a&Ha&->); apply tag_in_lit in H1; cbn [In] in Ha, H1; repeat (destruct Ha as [<-|Ha]); try contradiction; cbn; try tauto;
      try (intros ?; cbn; tauto); repeat (destruct H1 as [H1|H1]; [discriminate|]); contradiction.
  - inv Hp; bad_tag.
  - pose proof (parts_fun Hp H1). now subst.
  - inv Hp; bad_tag.
Qed.
Lemma not_empty_table tag nodes n : parts tag n -> ~ empty_table (XmlElement tag nodes).
Proof. intros Hp (l&E&_). inv E. inv Hp; bad_tag. Qed.
Lemma table_shape_iff nodes : table_shape_b nodes = true <-> table_shape nodes.
Proof.
  unfold table_shape_b, table_shape. rewrite on_elements_map, forallb_forall. split.
  - intros H line Hl. specialize (H _ (in_map _ _ _ Hl)). destruct line as [s|tag cells]; [discriminate|]. apply andb_prop in H as [Ht Hc].
    apply tag_is_iff in Ht as (n&[<-|[]]&->). exists cells. split; [reflexivity|]. intros cell Hcell. rewrite on_elements_map, forallb_forall in Hc. specialize (Hc _ (in_map _ _ _ Hcell)).
    destruct cell as [s|tag content]; [discriminate|]. apply tag_is_iff in Hc as (n&[<-|[]]&->). eauto.
  - intros H b Hb. apply in_map_iff in Hb as (line&<-&Hl). destruct (H _ Hl) as (cells&->&Hc). apply andb_true_intro. split; [reflexivity|].
    rewrite on_elements_map. apply forallb_forall. intros b Hb. apply in_map_iff in Hb as (cell&<-&Hcell). destruct (Hc _ Hcell) as (content&->). reflexivity.
Qed.
Lemma fold_max_ge l a : a <= fold_left Nat.max l a /\ forall x, In x l -> x <= fold_left Nat.max l a.
Proof.
  revert a. induction l as [|y l IH]; intros a; cbn [fold_left]; [split; [lia|intros x []]|]. destruct (IH (Nat.max a y)) as [H1 H2]. split; [lia|]. intros x [<-|Hx]; [lia|auto].
Qed.
Lemma fold_max_some l a : a < fold_left Nat.max l a -> exists x, In x l /\ a < x.
Proof.
  revert a. induction l as [|y l IH]; intros a H; cbn [fold_left] in H; [lia|]. destruct (le_lt_dec y a) as [Hy|Hy]; [|exists y; split; [now left|lia]].
  rewrite Nat.max_l in H by lia. destruct (IH _ H) as (x&Hx&Ha). exists x. split; [now right|exact Ha].
Qed.
Lemma table_line_ok e cs w rows : List.length cs <= w ->
  Forall2 (fun r a => exists e', r = Ok (a, e') /\ (e = [] -> e' = [])) (table_line w (map layout cs)) rows ->
  List.length rows = w /\ Forall2 (layout_of e) cs (firstn (List.length cs) rows) /\ Forall (fun r => r = []) (skipn (List.length cs) rows).
Proof.
  revert cs rows. induction w as [|w IH]; intros [|c cs] rows Hl H; cbn [table_line map] in H; cbn [List.length] in Hl; try lia.
  - inv H. cbn. auto.
  - inversion H as [|r row rs rows' (e'&E&He) HF]; subst. inv E. destruct (IH [] rows') as (H1&H2&H3); [cbn; lia|exact HF|]. cbn [List.length firstn skipn]. cbn in H3. split; [lia|]. split; [constructor|]. now constructor.
  - inversion H as [|r row rs rows' (e'&E&He) HF]; subst. destruct (IH cs rows') as (H1&H2&H3); [lia|exact HF|]. cbn [List.length firstn skipn]. split; [lia|]. split; [|exact H3]. constructor; [|exact H2].
    apply reading_ok in E as (l&e1&e2&E&E2&->). inv E2. exists l, e1. split; [exact E|]. split; [reflexivity|]. intros H'. apply He in H'. now apply app_eq_nil in H' as [H' _].
Qed.
Lemma table_lines_eq nodes : table_lines nodes = map (fun c => match c with XmlElement _ cells => map layout (elements cells) | XmlText _ => [] end) (elements nodes).
Proof. unfold table_lines. rewrite on_elements_map. apply map_ext. intros [s|tag l]; [reflexivity|]. apply on_elements_map. Qed.
Lemma table_ok nodes cells e : read_all (flat_map (table_line (table_width nodes)) (table_lines nodes)) = Ok (cells, e) ->
  exists lines, cells = concat lines /\
    Forall2 (fun line rows => List.length rows = table_width nodes /\ exists t cells, line = XmlElement t cells /\ List.length (elements cells) <= table_width nodes /\
      Forall2 (layout_of e) (elements cells) (firstn (List.length (elements cells)) rows) /\ Forall (fun r => r = []) (skipn (List.length (elements cells)) rows)) (elements nodes) lines.
Proof.
  intros H. apply read_all_ok in H.
  assert (Hw : forall t cells, In (XmlElement t cells) (elements nodes) -> List.length (elements cells) <= table_width nodes).
  { intros t l Hin. apply (fold_max_ge (map (@List.length _) (table_lines nodes)) 0). rewrite table_lines_eq, map_map. apply in_map_iff. eexists. split; [|exact Hin]. cbn. now rewrite map_length. }
  rewrite table_lines_eq in H. set (w := table_width nodes) in *. clearbody w. assert (He : forall c, In c (elements nodes) -> exists t l, c = XmlElement t l) by (intros c Hc; now apply in_elements in Hc).
  revert cells H. induction (elements nodes) as [|c cs IH]; intros cells H; cbn [map flat_map] in H.
  - inv H. exists []. split; [reflexivity|constructor].
  - destruct (He c (or_introl eq_refl)) as (t&l&->). apply Forall2_app_inv_l in H as (r1&r2&H1&H2&->). destruct (IH ltac:(eauto using in_cons) ltac:(eauto using in_cons) _ H2) as (lines&->&HF).
    exists (r1 :: lines). split; [reflexivity|]. constructor; [|exact HF]. assert (Hl := Hw t l (or_introl eq_refl)). destruct (table_line_ok Hl H1) as (L1&L2&L3). split; [exact L1|]. eauto 8.
Qed.
Lemma table_width_some nodes : 0 < table_width nodes -> exists t cells, In (XmlElement t cells) (elements nodes) /\ elements cells <> [].
Proof.
  intros H. apply fold_max_some in H as (x&Hx&H0). rewrite table_lines_eq, map_map in Hx. apply in_map_iff in Hx as (c&E&Hc). destruct (in_elements Hc) as (_&t&l&->). exists t, l. split; [exact Hc|].
  intros El. rewrite El in E. cbn in E. lia.
Qed.
Ltac split_errors := let H := fresh in intros H; repeat (apply app_eq_nil in H; let H1 := fresh in destruct H as [H1 H]); try assumption; repeat match goal with H : _ ++ _ = [] |- _ => apply app_eq_nil in H as [? ?] end; assumption.
Lemma no_kept_other tag nodes c : tag_is tag all_tags = false -> ~ kept_child (XmlElement tag nodes) c.
Proof.
  intros Ht Hk. assert (F : forall n, In n all_tags -> tag <> lit n).
  { intros n Hn ->. assert (tag_is (lit n) all_tags = true) by (apply tag_is_iff; exists n; auto). congruence. }
  assert (G : forall names, incl names all_tags -> ~ tag_in tag names) by (intros names Hi (n&Hn&E); exact (F n (Hi n Hn) E)).
  inv Hk.
  - eapply G; [|eassumption]. intros ?. cbn. tauto.
  - apply (F "semantics"%string); [cbn; tauto|reflexivity].
  - match goal with H : parts _ _ |- _ => inv H end; (eapply G; [|eassumption]; intros ?; cbn; tauto).
  - apply (F "mtable"%string); [cbn; tauto|reflexivity].
Qed.
Lemma layout_view x l e : layout x = Ok (l, e) -> view x e (wrap_in_row l).
Proof.
  destruct x as [s|tag nodes]; [discriminate|]. intros H. destruct (tag_split tag) as [Ht|[Ht|[Ht|[Ht|[Ht|[Ht|Ht]]]]]].
  - rewrite (layout_unknown nodes Ht) in H. inv H. apply view_error; [discriminate|intros c; now apply no_kept_other|]. intros (l&E&_). inv E. vm_compute in Ht. discriminate.
  - rewrite (layout_text nodes Ht) in H. inv H. unfold wrap_in_row. cbn [as_array]. rewrite wrap_texts. eapply view_text; eauto.
  - rewrite (layout_quoted nodes Ht) in H. inv H. unfold wrap_in_row. cbn [as_array app flat_map item_values]. rewrite flat_map_app, wrap_texts. eapply view_quoted; eauto.
  - rewrite (layout_flat nodes Ht) in H. apply reading_ok in H as (r&e1&e2&H&H2&->). inv H2. apply reading_ok in H as (ls&e3&e4&H&H2&->). inv H2. rewrite !app_nil_r.
    unfold wrap_in_row at 1. cbn [as_array flat_map item_values]. rewrite app_nil_r, wrap_many. eapply view_flat; eauto using children_ok.
  - assert (Hs : exists v, scripts_of tag = [v]) by (destruct Ht as (n&[<-|[<-|[]]]&->); eexists; reflexivity). destruct Hs as (v&Hv).
    assert (Hp : parts tag 2) by (constructor; destruct Ht as (n&[<-|[<-|[]]]&->); eexists; (split; [|reflexivity]); cbn; tauto).
    rewrite (layout_script nodes Ht Hv) in H. apply reading_ok in H as (base&e1&e2&H&H2&->). apply nth_layout in H as (a&Ha&Ea). apply expect_ok in H2 as [[Hn H2]|(Hn&He&->)].
    + apply reading_ok in H2 as (rb&e3&e4&Hb&H2&->). inv H2. apply list_two in Hn as (a'&b&El). rewrite El in Ha. inv Ha.
      destruct (@row_at_ok _ _ _ (e1 ++ e3 ++ []) _ Hb) as (b'&Hb'&Lb); [split_errors|]. rewrite El in Hb'. inv Hb'.
      unfold wrap_in_row. cbn [as_array]. rewrite flat_map_app. eapply view_script; [reflexivity| |exact Hv|exact El| |exact Lb]; [destruct Ht as (n&[<-|[<-|[]]]&->); eexists; (split; [|reflexivity]); cbn; tauto|].
      exists base, e1. split; [exact Ea|]. split; [reflexivity|]. split_errors.
    + apply view_error; [intros E; apply app_eq_nil in E as [_ E]; auto|intros c; eapply no_kept; eauto|eapply not_empty_table; eauto].
  - assert (Hs : exists v, scripts_of tag = [v]) by (destruct Ht as (n&[<-|[<-|[]]]&->); eexists; reflexivity). destruct Hs as (v&Hv).
    assert (Hp : parts tag 2) by (constructor; destruct Ht as (n&[<-|[<-|[]]]&->); eexists; (split; [|reflexivity]); cbn; tauto).
    rewrite (layout_under nodes Ht Hv) in H. apply expect_ok in H as [[Hn H]|(Hn&He&->)].
    + apply reading_ok in H as (ra&e1&e2&Ha&H&->). apply reading_ok in H as (rb&e3&e4&Hb&H&->). inv H. apply list_two in Hn as (a&b&El).
      destruct (@row_at_ok _ _ _ (e1 ++ e3 ++ []) _ Ha) as (a'&Ha'&La); [split_errors|]. destruct (@row_at_ok _ _ _ (e1 ++ e3 ++ []) _ Hb) as (b'&Hb'&Lb); [split_errors|].
      rewrite El in Ha', Hb'. inv Ha'. inv Hb'. unfold wrap_in_row. cbn [as_array]. rewrite flat_map_app, wrap_items.
      eapply view_script; [reflexivity| |exact Hv|exact El|exact La|exact Lb]. destruct Ht as (n&[<-|[<-|[]]]&->); eexists; (split; [|reflexivity]); cbn; tauto.
    + apply view_error; [exact He|intros c; eapply no_kept; eauto|eapply not_empty_table; eauto].
  - cbn [In] in Ht. destruct Ht as [<-|[<-|[<-|[<-|[<-|[<-|[<-|[<-|[]]]]]]]]].
    + rewrite layout_sqrt in H. apply reading_ok in H as (r&e1&e2&H&H2&->). inv H2. apply reading_ok in H as (ls&e3&e4&H&H2&->). inv H2. rewrite !app_nil_r, wrap_many.
      eapply view_sqrt; eauto using children_ok.
    + destruct (elements nodes) as [|c cs] eqn:El.
      * rewrite layout_semantics' in H by now rewrite on_elements_map, El. inv H. apply view_error; [discriminate| |intros (l&E&_); inv E].
        intros c Hk. inv Hk; try (match goal with H : parts _ _ |- _ => inv H end; bad_tag); try bad_tag; congruence.
      * rewrite layout_semantics in H by (rewrite on_elements_map, El; cbn; lia). rewrite on_elements_map, El in H. cbn in H. eapply view_semantics; eauto. exists l, e. auto.
    + assert (Hp : parts (lit "mfrac") 2) by (constructor; eexists; (split; [|reflexivity]); cbn; tauto).
      rewrite layout_frac in H. apply expect_ok in H as [[Hn H]|(Hn&He&->)]; [|apply view_error; [exact He|intros c; eapply no_kept; eauto|eapply not_empty_table; eauto]].
      apply reading_ok in H as (cells&e1&e2&H&H2&->). inv H2. rewrite app_nil_r. apply list_two in Hn as (a&b&El). apply read_all_ok in H. rewrite on_elements_map, El in H. cbn [map] in H.
      inversion H as [|r1 ra rs rows (e'&E1&He1) HF]; subst. inversion HF as [|r2 rb rs' rows' (e''&E2&He2) HF2]; subst. inv HF2.
      apply reading_ok in E1 as (la&ea&ea'&Ea&E1&->). inv E1. apply reading_ok in E2 as (lb&eb&eb'&Eb&E2&->). inv E2. unfold wrap_in_row at 1. cbn [as_array flat_map item_values app].
      eapply view_frac; [reflexivity|exact El| |].
      * exists la, ea. split; [exact Ea|]. split; [reflexivity|]. intros E. apply He1 in E. now apply app_eq_nil in E as [E _].
      * exists lb, eb. split; [exact Eb|]. split; [reflexivity|]. intros E. apply He2 in E. now apply app_eq_nil in E as [E _].
    + assert (Hp : parts (lit "mroot") 2) by (constructor; eexists; (split; [|reflexivity]); cbn; tauto).
      rewrite layout_root in H. apply expect_ok in H as [[Hn H]|(Hn&He&->)]; [|apply view_error; [exact He|intros c; eapply no_kept; eauto|eapply not_empty_table; eauto]].
      apply reading_ok in H as (rb&e1&e2&Hb&H&->). apply reading_ok in H as (ra&e3&e4&Ha&H&->). inv H. apply list_two in Hn as (a&b&El).
      destruct (@row_at_ok _ _ _ (e1 ++ e3 ++ []) _ Ha) as (a'&Ha'&La); [split_errors|]. destruct (@row_at_ok _ _ _ (e1 ++ e3 ++ []) _ Hb) as (b'&Hb'&Lb); [split_errors|].
      rewrite El in Ha', Hb'. inv Ha'. inv Hb'. eapply view_root; eauto.
    + assert (Hp : parts (lit "msubsup") 3) by (constructor; eexists; (split; [|reflexivity]); cbn; tauto).
      rewrite layout_subsup in H. apply reading_ok in H as (base&e1&e2&H&H2&->). apply nth_layout in H as (a&Ha&Ea). apply expect_ok in H2 as [[Hn H2]|(Hn&He&->)].
      * apply reading_ok in H2 as (rb&e3&e4&Hb&H2&->). apply reading_ok in H2 as (rc&e5&e6&Hc&H2&->). inv H2. apply list_three in Hn as (a'&b&c&El). rewrite El in Ha. inv Ha.
        destruct (@row_at_ok _ _ _ (e1 ++ e3 ++ e5 ++ []) _ Hb) as (b'&Hb'&Lb); [split_errors|]. destruct (@row_at_ok _ _ _ (e1 ++ e3 ++ e5 ++ []) _ Hc) as (c'&Hc'&Lc); [split_errors|].
        rewrite El in Hb', Hc'. inv Hb'. inv Hc'. unfold wrap_in_row. cbn [as_array]. rewrite flat_map_app.
        eapply view_scripts; [reflexivity| |exact El| |exact Lb|exact Lc]; [eexists; (split; [|reflexivity]); cbn; tauto|]. exists base, e1. split; [exact Ea|]. split; [reflexivity|]. split_errors.
      * apply view_error; [intros E; apply app_eq_nil in E as [_ E]; auto|intros c; eapply no_kept; eauto|eapply not_empty_table; eauto].
    + assert (Hp : parts (lit "munderover") 3) by (constructor; eexists; (split; [|reflexivity]); cbn; tauto).
      rewrite layout_underover in H. apply expect_ok in H as [[Hn H]|(Hn&He&->)]; [|apply view_error; [exact He|intros c; eapply no_kept; eauto|eapply not_empty_table; eauto]].
      apply reading_ok in H as (ra&e1&e2&Ha&H&->). apply reading_ok in H as (rb&e3&e4&Hb&H&->). apply reading_ok in H as (rc&e5&e6&Hc&H&->). inv H. apply list_three in Hn as (a&b&c&El).
      destruct (@row_at_ok _ _ _ (e1 ++ e3 ++ e5 ++ []) _ Ha) as (a'&Ha'&La); [split_errors|]. destruct (@row_at_ok _ _ _ (e1 ++ e3 ++ e5 ++ []) _ Hb) as (b'&Hb'&Lb); [split_errors|].
      destruct (@row_at_ok _ _ _ (e1 ++ e3 ++ e5 ++ []) _ Hc) as (c'&Hc'&Lc); [split_errors|]. rewrite El in Ha', Hb', Hc'. inv Ha'. inv Hb'. inv Hc'. unfold wrap_in_row. cbn [as_array]. rewrite flat_map_app, wrap_items.
      eapply view_scripts; [reflexivity| |exact El|exact La|exact Lb|exact Lc]. eexists; (split; [|reflexivity]); cbn; tauto.
    + rewrite layout_table in H. destruct (table_shape_b nodes) eqn:Hs.
      * apply reading_ok in H as (cells&e1&e2&H&H2&->). inv H2. rewrite app_nil_r. destruct (table_ok H) as (lines&->&HF).
        eapply view_table; [reflexivity|now apply table_shape_iff|exact HF|apply table_width_some].
      * inv H. apply view_error; [discriminate| |].
        -- intros c Hk. inv Hk; try (match goal with H : parts _ _ |- _ => inv H end; bad_tag); try bad_tag. match goal with H : table_shape _ |- _ => apply table_shape_iff in H; congruence end.
        -- intros (l&E&Hl). inv E. assert (table_shape l); [|match goal with H : table_shape _ |- _ => apply table_shape_iff in H; congruence end].
           intros line Hline. destruct (Hl _ Hline) as (cells&->&Ec). exists cells. split; [reflexivity|]. rewrite Ec. intros cell [].
    + rewrite layout_style in H. inv H. eapply view_style. reflexivity.
Qed.

(** ** Well-formed documents *)
Definition clean (x : Xml) : Prop := forall y, kept x y -> ~ empty_table y.
Lemma clean_iff x : clean x <-> ~ empty_table x /\ forall c, kept_child x c -> clean c.
Proof.
  split.
  - intros H. split; [apply H; constructor|]. intros c Hc y Hy. apply H. econstructor; eauto.
  - intros [H1 H2] y Hy. inv Hy; [exact H1|]. eapply H2; eauto.
Qed.
Lemma wf_concat rows : wf_row (concat rows) <-> Forall wf_row rows.
Proof.
  induction rows as [|r rows IH]; cbn [concat].
  - split; intros; [constructor|apply wf_row_nil].
  - rewrite wf_row_app, IH. split; [intros [H1 H2]; now constructor|intros H; inv H; auto].
Qed.
Lemma wf_one v cells w : 0 < w -> cells <> [] -> List.length cells mod w = 0 -> (wf_row [Container v (mkGrid cells w)] <-> Forall wf_row cells).
Proof.
  intros H1 H2 H3. rewrite Forall_forall. split.
  - intros H cell Hc. specialize (H _ (or_introl eq_refl)). inv H. intros n Hn. eauto.
  - intros H n [<-|[]]. constructor; auto.
Qed.
Lemma wf_texts l : wf_row (map (fun s => sym s) l).
Proof. intros n Hn. apply in_map_iff in Hn as (s&<-&_). constructor. Qed.
Ltac not_parts := match goal with H : parts _ _ |- _ => inv H end; bad_tag.
Lemma wf_layouts e cs rows : (forall c, In c cs -> forall row, layout_of e c row -> (wf_row row <-> clean c)) -> Forall2 (layout_of e) cs rows ->
  (Forall wf_row rows <-> forall c, In c cs -> clean c).
Proof.
  intros IH HF. induction HF as [|c row cs rows Hc HF IHF]; [split; [intros _ c []|constructor]|].
  specialize (IHF (fun c H => IH c (or_intror H))). specialize (IH c (or_introl eq_refl) _ Hc). split.
  - intros H. inversion H as [|r l Hr Hl]; subst. intros c' [<-|Hin]; [now apply IH|]. now apply IHF.
  - intros H. constructor; [apply IH, H; now left|]. apply IHF. intros c' Hin. apply H. now right.
Qed.
Lemma in_parts nodes c : In c (elements nodes) -> In c nodes.
Proof. intros H. now apply in_elements in H. Qed.
Lemma not_table tag nodes : tag <> lit "mtable" -> ~ empty_table (XmlElement tag nodes).
Proof. intros H (l&E&_). inv E. congruence. Qed.
Lemma lit_eq_dec a b : str_eqb (lit a) (lit b) = false -> lit a <> lit b.
Proof. intros H E. rewrite E in H. rewrite (proj2 (str_eqb_eq _ _) eq_refl) in H. discriminate. Qed.
Ltac no_table := apply not_table; let E := fresh in first [match goal with H : tag_in _ _ |- _ => destruct H as (?n&H&->); cbn [In] in H; repeat (destruct H as [<-|H]); try contradiction; apply lit_eq_dec; reflexivity end|apply lit_eq_dec; reflexivity].
(** The children that are kept, for the cases in which all of them are *)
Lemma kept_all tag nodes n c : parts tag n -> List.length (elements nodes) = n -> (kept_child (XmlElement tag nodes) c <-> In c (elements nodes)).
Proof.
  intros Hp Hn. split; [|intros H; eapply kept_part; eauto]. intros Hk. inv Hk; auto; try not_parts.
Qed.
Lemma kept_flat tag nodes c : tag_in tag ["math"; "mrow"; "mtd"; "msqrt"]%string -> (kept_child (XmlElement tag nodes) c <-> In c (elements nodes)).
Proof. intros Ht. split; [|intros H; now apply kept_row]. intros Hk. inv Hk; auto; bad_tag. Qed.
Lemma kept_leaf tag nodes c : tag_in tag ["mi"; "mn"; "mo"; "mtext"; "ms"; "mstyle"]%string -> ~ kept_child (XmlElement tag nodes) c.
Proof.
  intros (n&Hn&->) Hk. cbn [In] in Hn. repeat (destruct Hn as [<-|Hn]); try contradiction;
  (inversion Hk; subst; try bad_tag; try not_parts).
Qed.
Lemma parts_two name : In name ["mfrac"; "mroot"; "msub"; "msup"; "munder"; "mover"]%string -> parts (lit name) 2.
Proof. intros H. constructor. exists name. auto. Qed.
Lemma parts_three name : In name ["msubsup"; "munderover"]%string -> parts (lit name) 3.
Proof. intros H. constructor. exists name. auto. Qed.
Lemma firstn_skipn_wf n (rows : list InputRow) : Forall (fun r => r = []) (skipn n rows) -> (Forall wf_row rows <-> Forall wf_row (firstn n rows)).
Proof.
  intros H. rewrite <- (firstn_skipn n rows) at 1. rewrite Forall_app. split; [tauto|]. intros H'. split; [exact H'|]. eapply Forall_impl; [|exact H]. intros r ->. apply wf_row_nil.
Qed.
Lemma wf_view x e row : view x e row -> (forall c, kept_child x c -> forall row, layout_of e c row -> (wf_row row <-> clean c)) -> (wf_row row <-> clean x).
Proof.
  intros Hv IH. rewrite clean_iff. inv Hv.
  - split; [|intros _; apply wf_texts]. intros _. split; [no_table|]. intros c Hc. exfalso. eapply kept_leaf; [|exact Hc]. match goal with H : tag_in _ _ |- _ => destruct H as (n&H&->); exists n; split; [cbn in *; tauto|reflexivity] end.
  - split; [|intros _; apply wf_row_cons; split; [constructor|]; apply wf_row_app; split; [apply wf_texts|apply wf_row_cons; split; [constructor|apply wf_row_nil]]].
    intros _. split; [no_table|]. intros c Hc. exfalso. eapply kept_leaf; [|exact Hc]. match goal with H : tag_in _ _ |- _ => destruct H as (n&H&->); exists n; split; [cbn in *; tauto|reflexivity] end.
  - assert (Ht : tag_in tag ["math"; "mrow"; "mtd"; "msqrt"]%string) by (match goal with H : tag_in _ _ |- _ => destruct H as (n&H&->); exists n; split; [cbn in *; tauto|reflexivity] end).
    rewrite wf_concat, wf_layouts; [|intros c Hc; apply IH, kept_flat; eauto|eassumption].
    split; [intros Hc; split; [no_table|]; intros c Hk; apply Hc; eapply kept_flat; eauto|]. intros [_ Hc] c Hin. apply Hc. now apply kept_flat.
  - assert (Ht : tag_in (lit "msqrt") ["math"; "mrow"; "mtd"; "msqrt"]%string) by (eexists; (split; [|reflexivity]); cbn; tauto).
    rewrite wf_one by (cbn; lia || discriminate || reflexivity).
    split.
    + intros HF. inversion HF as [|r1 l1 _ HF2]; subst. inversion HF2 as [|r2 l2 HF3 _]; subst. rewrite wf_concat, wf_layouts in HF3; [|intros c Hc; apply IH, kept_flat; eauto|eassumption].
      split; [no_table|]. intros c Hk. apply HF3. eapply kept_flat; eauto.
    + intros [_ Hc]. constructor; [intros n [<-|[]]; constructor|]. constructor; [|constructor]. rewrite wf_concat, wf_layouts; [|intros c Hc'; apply IH, kept_flat; eauto|eassumption]. intros c Hin. apply Hc. now apply kept_flat.
  - assert (Hk : forall c', kept_child (XmlElement (lit "semantics") nodes) c' <-> c' = c).
    { intros c'. split; [|intros ->; eapply kept_semantics; eauto]. intros Hk. inv Hk; try bad_tag; try not_parts. congruence. }
    rewrite (IH c); [|now apply Hk|eassumption]. split; [intros Hc; split; [no_table|]; intros c' Hc'; apply Hk in Hc'; now subst|]. intros [_ Hc]. now apply Hc, Hk.
  - pose proof (kept_all a (@parts_two "mfrac"%string ltac:(cbn; tauto)) (f_equal (@List.length _) H0)) as Ka. pose proof (kept_all b (@parts_two "mfrac"%string ltac:(cbn; tauto)) (f_equal (@List.length _) H0)) as Kb.
    pose proof (fun c => kept_all c (@parts_two "mfrac"%string ltac:(cbn; tauto)) (f_equal (@List.length _) H0)) as Kc. rewrite H0 in Ka, Kb, Kc.
    rewrite wf_one by (cbn; lia || discriminate || reflexivity). split.
    + intros HF. inversion HF as [|r1 l1 W1 HF2]; subst. inversion HF2 as [|r2 l2 W2 _]; subst. split; [no_table|]. intros c Hc. apply Kc in Hc as [<-|[<-|[]]]; [apply (IH a) in H1; [now apply H1|apply Ka; cbn; tauto]|apply (IH b) in H2; [now apply H2|apply Kb; cbn; tauto]].
    + intros [_ Hc]. assert (Ha : kept_child (XmlElement (lit "mfrac") nodes) a) by (apply Ka; cbn; tauto). assert (Hb : kept_child (XmlElement (lit "mfrac") nodes) b) by (apply Kb; cbn; tauto).
      constructor; [apply (IH a Ha _ H1), Hc, Ha|]. constructor; [apply (IH b Hb _ H2), Hc, Hb|constructor].
  - pose proof (fun c => kept_all c (@parts_two "mroot"%string ltac:(cbn; tauto)) (f_equal (@List.length _) H0)) as Kc. rewrite H0 in Kc.
    assert (Ha : kept_child (XmlElement (lit "mroot") nodes) a) by (apply Kc; cbn; tauto). assert (Hb : kept_child (XmlElement (lit "mroot") nodes) b) by (apply Kc; cbn; tauto).
    rewrite wf_one by (cbn; lia || discriminate || reflexivity). split.
    + intros HF. inversion HF as [|r1 l1 W1 HF2]; subst. inversion HF2 as [|r2 l2 W2 _]; subst. split; [no_table|]. intros c Hc. apply Kc in Hc as [<-|[<-|[]]]; [now apply (IH a Ha _ H1)|now apply (IH b Hb _ H2)].
    + intros [_ Hc]. constructor; [apply (IH b Hb _ H2), Hc, Hb|]. constructor; [apply (IH a Ha _ H1), Hc, Ha|constructor].
  - assert (Hp : parts tag 2) by (match goal with H : tag_in _ _ |- _ => destruct H as (n&H&->); apply parts_two; cbn in *; tauto end).
    pose proof (fun c => kept_all c Hp (f_equal (@List.length _) H2)) as Kc. rewrite H2 in Kc.
    assert (Ha : kept_child (XmlElement tag nodes) a) by (apply Kc; cbn; tauto). assert (Hb : kept_child (XmlElement tag nodes) b) by (apply Kc; cbn; tauto).
    rewrite wf_row_app, (IH a Ha _ H3). unfold script_node. rewrite wf_one by (cbn; lia || discriminate || reflexivity). split.
    + intros [W1 HF]. inversion HF as [|r1 l1 W2 _]; subst. split; [eapply not_empty_table; eauto|]. intros c Hc. apply Kc in Hc as [<-|[<-|[]]]; [exact W1|]. now apply (IH b Hb _ H4).
    + intros [_ Hc]. split; [auto|]. constructor; [apply (IH b Hb _ H4), Hc, Hb|constructor].
  - assert (Hp : parts tag 3) by (match goal with H : tag_in _ _ |- _ => destruct H as (n&H&->); apply parts_three; cbn in *; tauto end).
    pose proof (fun c => kept_all c Hp (f_equal (@List.length _) H1)) as Kc. rewrite H1 in Kc.
    assert (Ha : kept_child (XmlElement tag nodes) a) by (apply Kc; cbn; tauto). assert (Hb : kept_child (XmlElement tag nodes) b) by (apply Kc; cbn; tauto). assert (Hd : kept_child (XmlElement tag nodes) c) by (apply Kc; cbn; tauto).
    change [script_node Sub rb; script_node Sup rc] with ([script_node Sub rb] ++ [script_node Sup rc]).
    rewrite !wf_row_app, (IH a Ha _ H2). unfold script_node. rewrite !wf_one by (cbn; lia || discriminate || reflexivity). split.
    + intros (W1&HF&HF'). inversion HF as [|r1 l1 W2 _]; subst. inversion HF' as [|r2 l2 W3 _]; subst. split; [eapply not_empty_table; eauto|]. intros c' Hc. apply Kc in Hc as [<-|[<-|[<-|[]]]]; [exact W1| |]; [now apply (IH b Hb _ H3)|now apply (IH c Hd _ H4)].
    + intros [_ Hc]. split; [auto|]. split; (constructor; [|constructor]); [apply (IH b Hb _ H3), Hc, Hb|apply (IH c Hd _ H4), Hc, Hd].
  - rename H0 into Hs, H1 into HF, H2 into Hw.
    assert (Kc : forall c, kept_child (XmlElement (lit "mtable") nodes) c <-> exists t cells, In (XmlElement t cells) (elements nodes) /\ In c (elements cells)).
    { intros c. split; [|intros (t&cells&H1&H2); eapply kept_cell; eauto]. intros Hk. inv Hk; try bad_tag; try not_parts. eauto. }
    destruct width as [|width].
    + (* all lines are empty *)
      split.
      * intros W. specialize (W _ (or_introl eq_refl)). inv W. lia.
      * intros [Hn _]. exfalso. apply Hn. exists nodes. split; [reflexivity|]. intros line Hline. destruct (Hs _ Hline) as (cells&->&_). exists cells. split; [reflexivity|].
        clear - HF Hline. induction HF as [|line rows nodes' lines (Hl&t&cells'&->&Hle&_) HF IH]; [destruct Hline|]. destruct Hline as [E|Hline]; [|auto]. inv E. destruct (elements cells); [reflexivity|cbn in Hle; lia].
    + destruct (Hw ltac:(lia)) as (t0&cells0&Hin0&Hne).
      assert (Hlen : List.length (concat lines) = List.length (elements nodes) * S width).
      { clear - HF. induction HF as [|line rows nodes' lines (Hl&_) HF IH]; [reflexivity|]. cbn [concat List.length]. rewrite app_length, IH. lia. }
      assert (Hpos : 0 < List.length (elements nodes)) by (destruct (elements nodes); [destruct Hin0|cbn; lia]).
      rewrite wf_one; [|lia|intros E; rewrite E in Hlen; cbn [List.length] in Hlen; clear - Hlen Hpos; nia|rewrite Hlen; apply Nat.mod_mul; lia].
      assert (Heq : Forall wf_row (concat lines) <-> forall t cells, In (XmlElement t cells) (elements nodes) -> forall c, In c (elements cells) -> clean c).
      { assert (IH' : forall t cells, In (XmlElement t cells) (elements nodes) -> forall c, In c (elements cells) -> forall row, layout_of e c row -> (wf_row row <-> clean c)) by (intros t cells H1 c H2; apply IH, Kc; eauto).
        clear - HF IH'. induction HF as [|line rows nodes' lines (Hl&t&cells&->&Hle&HF1&HF2) HF IH]; [split; [intros _ t cells []|constructor]|].
        cbn [concat]. rewrite Forall_app, IH by eauto using in_cons. rewrite (firstn_skipn_wf HF2), wf_layouts; [|intros c Hc; eapply IH'; eauto; now left|exact HF1]. split.
        - intros [H1 H2] t' cells' [E|Hin] c Hc; [inv E; auto|eauto].
        - intros H. split; [intros c Hc; eapply H; [left; reflexivity|exact Hc]|intros t' cells' Hin c Hc; eapply H; [right; exact Hin|exact Hc]]. }
      rewrite Heq. split.
      * intros H. split; [|intros c Hc; apply Kc in Hc as (t&cells&H1&H2); eauto]. intros (l&E&Hl). inv E. destruct (Hl _ Hin0) as (cells&E&El). inv E. auto.
      * intros [_ H] t cells H1 c H2. apply H, Kc. eauto.
  - split; [|intros _; apply wf_row_nil]. intros _. split; [no_table|]. intros c Hc. exfalso. eapply kept_leaf; [|exact Hc]. eexists. split; [|reflexivity]. cbn. tauto.
  - split; [|intros _ n [<-|[]]; constructor]. intros _. split; [assumption|]. intros c Hc. exfalso. match goal with H : forall c, ~ kept_child _ c |- _ => exact (H c Hc) end.
Qed.
Lemma kept_child_in tag nodes c : kept_child (XmlElement tag nodes) c -> exists tag' l, c = XmlElement tag' l /\ (In c nodes \/ exists t cells, In (XmlElement t cells) nodes /\ In c cells).
Proof.
  intros H. inv H; [| | |].
  - match goal with H : In c _ |- _ => destruct (in_elements H) as (H'&t&l&->) end. eauto 8.
  - assert (Hc : In c (elements nodes)) by (match goal with H : elements _ = _ |- _ => rewrite H; now left end). destruct (in_elements Hc) as (H'&t&k&->). eauto 8.
  - match goal with H : In c _ |- _ => destruct (in_elements H) as (H'&t&l&->) end. eauto 8.
  - match goal with H : In c (elements cells) |- _ => destruct (in_elements H) as (H'&t'&l&->) end. match goal with H : In (XmlElement _ _) (elements nodes) |- _ => apply in_elements in H as [H _] end. eauto 10.
Qed.
(** Induction over what is kept: grandchildren of tables *)
Lemma kept_induct (Q : Xml -> Prop) : (forall x, (forall c, kept_child x c -> Q c) -> Q x) -> forall x, Q x.
Proof.
  intros H x. enough (Q x /\ forall tag nodes, x = XmlElement tag nodes -> forall c, In c nodes -> Q c) by tauto. induction x as [s|tag nodes IH] using xml_ind'.
  - split; [|discriminate]. apply H. intros c Hc. inv Hc.
  - assert (Hin : forall c, In c nodes -> Q c) by (intros c Hc; apply IH, Hc). split; [|intros t l E; inv E; auto]. apply H. intros c Hc. apply kept_child_in in Hc as (t'&l'&->&[Hc|(t&cells&H1&H2)]); [auto|]. destruct (IH _ H1) as [_ H3]. eauto.
Qed.
Lemma wf_layout x : forall e row, layout_of e x row -> (wf_row row <-> clean x).
Proof.
  induction x as [x IH] using kept_induct. intros e row (l&e'&E&->&_). apply layout_view in E. apply (wf_view E). intros c Hc row Hr. eapply IH; eauto.
Qed.

(** ** Exceptions *)
Definition throws (x : Xml) : Prop := exists k, layout x = Panic k.
Lemma reading_panics A B (r : Reading A) (f : A -> Reading B) k : r = Panic k -> exists k, reading r f = Panic k.
Proof. intros ->. exists k. reflexivity. Qed.
Lemma reading_panics' A B (r : Reading A) (f : A -> Reading B) : (forall a e, r = Ok (a, e) -> exists k, f a = Panic k) -> exists k, reading r f = Panic k.
Proof. intros H. destruct r as [[a e]|k]; [|exists k; reflexivity]. destruct (H a e eq_refl) as (k&E). exists k. unfold reading. cbn [bind]. rewrite E. reflexivity. Qed.
Lemma read_all_panics A (l : list (Reading A)) r k : In r l -> r = Panic k -> exists k, read_all l = Panic k.
Proof.
  intros Hin ->. induction l as [|r l IH]; [destruct Hin|]. cbn [read_all]. destruct Hin as [->|Hin]; [eapply reading_panics; reflexivity|]. apply reading_panics'. intros a e _. destruct (IH Hin) as (k'&E). eapply reading_panics; eauto.
Qed.
Lemma nth_throws nodes j c : nth_error (elements nodes) j = Some c -> throws c -> exists k, nth j (on_elements layout nodes) throw = Panic k.
Proof. intros Hc (k&E). exists k. rewrite on_elements_map. rewrite <- E. apply nth_error_nth. now rewrite nth_error_map, Hc. Qed.
Lemma row_at_throws nodes j c : nth_error (elements nodes) j = Some c -> throws c -> exists k, row_at nodes j = Panic k.
Proof. intros Hc Ht. destruct (nth_throws Hc Ht) as (k&E). eapply reading_panics; eauto. Qed.
Lemma children_throw nodes c : In c (elements nodes) -> throws c -> exists k, read_all (on_elements layout nodes) = Panic k.
Proof. intros Hc (k&E). rewrite on_elements_map. eapply read_all_panics; [apply in_map; exact Hc|exact E]. Qed.
Lemma expect_throws tag nodes n r : List.length (elements nodes) = n -> (exists k, r = Panic k) -> exists k, expect tag nodes n r = Panic k.
Proof. intros H (k&E). exists k. unfold expect, expect_children. rewrite on_elements_map, map_length, H, Nat.eqb_refl. exact E. Qed.
Lemma in_nth A (l : list A) c : In c l -> exists j, j < List.length l /\ nth_error l j = Some c.
Proof. intros H. apply In_nth_error in H as (j&E). exists j. split; [|exact E]. apply nth_error_Some. congruence. Qed.
Ltac then_panics := first [eapply reading_panics; eassumption | apply reading_panics'; intros ? ? _].
Lemma kept_throws x c : kept_child x c -> throws c -> throws x.
Proof.
  intros Hk Ht. unfold throws. inv Hk.
  - match goal with H : tag_in _ _ |- _ => destruct H as (n&H&->); cbn [In] in H end. destruct (children_throw H0 Ht) as (k&E).
    assert (Hf : tag_in (lit n) ["math"; "mrow"; "mtd"]%string \/ n = "msqrt"%string) by (destruct H as [<-|[<-|[<-|[<-|[]]]]]; [left|left|left|now right]; eexists; (split; [|reflexivity]); cbn; tauto).
    destruct Hf as [Hf| ->]; [rewrite layout_flat by exact Hf|rewrite layout_sqrt]; destruct (reading_panics (fun l => read (wrap_in_row (Many (flat_map as_array l)))) E) as (k'&E'); eapply reading_panics; exact E'.
  - assert (Hn : nth_error (elements nodes) 0 = Some c) by (match goal with H : elements _ = _ |- _ => now rewrite H end). rewrite layout_semantics; [exact (nth_throws Hn Ht)|]. rewrite on_elements_map, map_length. match goal with H : elements _ = _ |- _ => rewrite H; cbn; lia end.
  - rename H into Hp. match goal with H : In c _ |- _ => rename H into Hin end. destruct (in_nth Hin) as (j&Hj&Ej).
    inversion Hp as [t (name&Hname&Ename) Et En|t (name&Hname&Ename) Et En]; subst t; subst tag; rewrite <- En in Hj; cbn [In] in Hname.
    + symmetry in En. assert (Hj' : j = 0 \/ j = 1) by lia. destruct Hname as [<-|[<-|[<-|[<-|[<-|[<-|[]]]]]]].
      * rewrite layout_frac. apply (expect_throws _ En). destruct Ht as (k&E). destruct (@read_all_panics _ (map (fun c => l <~ c ;; read (wrap_in_row l)) (on_elements layout nodes)) (l <~ layout c ;; read (wrap_in_row l)) k) as (k'&E').
        { rewrite on_elements_map, map_map. apply in_map_iff. exists c. split; [reflexivity|exact Hin]. } { rewrite E. reflexivity. } eapply reading_panics. exact E'.
      * rewrite layout_root. apply (expect_throws _ En). destruct (row_at_throws Ej Ht) as (k&E). destruct Hj' as [-> | ->]; [apply reading_panics'; intros ? ? _|]; eapply reading_panics; exact E.
      * rewrite (@layout_script _ _ Sub) by (reflexivity || (eexists; (split; [|reflexivity]); cbn; tauto)).
        destruct Hj' as [-> | ->]; [destruct (nth_throws Ej Ht) as (k&E); eapply reading_panics; exact E|]. destruct (row_at_throws Ej Ht) as (k&E). apply reading_panics'; intros ? ? _. apply (expect_throws _ En). eapply reading_panics; exact E.
      * rewrite (@layout_script _ _ Sup) by (reflexivity || (eexists; (split; [|reflexivity]); cbn; tauto)).
        destruct Hj' as [-> | ->]; [destruct (nth_throws Ej Ht) as (k&E); eapply reading_panics; exact E|]. destruct (row_at_throws Ej Ht) as (k&E). apply reading_panics'; intros ? ? _. apply (expect_throws _ En). eapply reading_panics; exact E.
      * rewrite (@layout_under _ _ Sub) by (reflexivity || (eexists; (split; [|reflexivity]); cbn; tauto)). apply (expect_throws _ En).
        destruct (row_at_throws Ej Ht) as (k&E). destruct Hj' as [-> | ->]; [|apply reading_panics'; intros ? ? _]; eapply reading_panics; exact E.
      * rewrite (@layout_under _ _ Sup) by (reflexivity || (eexists; (split; [|reflexivity]); cbn; tauto)). apply (expect_throws _ En).
        destruct (row_at_throws Ej Ht) as (k&E). destruct Hj' as [-> | ->]; [|apply reading_panics'; intros ? ? _]; eapply reading_panics; exact E.
    + symmetry in En. assert (Hj' : j = 0 \/ j = 1 \/ j = 2) by lia. destruct (row_at_throws Ej Ht) as (k&E). destruct Hname as [<-|[<-|[]]].
      * rewrite layout_subsup. destruct Hj' as [-> |[-> | ->]]; [destruct (nth_throws Ej Ht) as (k'&E'); eapply reading_panics; exact E'| |].
        -- apply reading_panics'; intros ? ? _. apply (expect_throws _ En). eapply reading_panics; exact E.
        -- apply reading_panics'; intros ? ? _. apply (expect_throws _ En). apply reading_panics'; intros ? ? _. eapply reading_panics; exact E.
      * rewrite layout_underover. apply (expect_throws _ En). destruct Hj' as [-> |[-> | ->]]; [eapply reading_panics; exact E| |].
        -- apply reading_panics'; intros ? ? _. eapply reading_panics; exact E.
        -- apply reading_panics'; intros ? ? _. apply reading_panics'; intros ? ? _. eapply reading_panics; exact E.
  - rewrite layout_table. match goal with H : table_shape _ |- _ => apply table_shape_iff in H; rewrite H; clear H end.
    match goal with H1 : In (XmlElement _ _) _, H2 : In c _ |- _ => rename H1 into Hl; rename H2 into Hc end. destruct Ht as (k&E).
    assert (Hw : List.length (elements cells) <= table_width nodes).
    { apply (fold_max_ge (map (@List.length _) (table_lines nodes)) 0). rewrite table_lines_eq, map_map. apply in_map_iff. eexists. split; [|exact Hl]. cbn. now rewrite map_length. }
    destruct (@read_all_panics _ (flat_map (table_line (table_width nodes)) (table_lines nodes)) (l <~ layout c ;; read (wrap_in_row l)) k) as (k'&E').
    + apply in_flat_map. exists (map layout (elements cells)). split; [rewrite table_lines_eq; apply in_map_iff; exists (XmlElement t cells); auto|].
      revert Hw Hc. generalize (table_width nodes). generalize (elements cells). clear. induction l as [|d l IH]; intros w Hw Hc; [destruct Hc|]. destruct w as [|w]; [cbn in Hw; lia|].
      cbn [map table_line]. destruct Hc as [->|Hc]; [now left|]. right. apply IH; [cbn in Hw; lia|exact Hc].
    + rewrite E. reflexivity.
    + eapply reading_panics. exact E'.
Qed.
Lemma looked_throws x y : looked_at x y -> empty_script y -> throws x.
Proof.
  intros H He. induction H as [x|x c y Hk H IH|tag nodes c l y Ht El H IH].
  - destruct He as (tag&nodes&->&(n&Hn&->)&El). unfold throws. cbn [In script_tags] in Hn. destruct Hn as [<-|[<-|[<-|[]]]].
    + rewrite (@layout_script _ _ Sub) by (reflexivity || (eexists; (split; [|reflexivity]); cbn; tauto)). eapply reading_panics. rewrite on_elements_map, El. reflexivity.
    + rewrite (@layout_script _ _ Sup) by (reflexivity || (eexists; (split; [|reflexivity]); cbn; tauto)). eapply reading_panics. rewrite on_elements_map, El. reflexivity.
    + rewrite layout_subsup. eapply reading_panics. rewrite on_elements_map, El. reflexivity.
  - exact (kept_throws Hk (IH He)).
  - specialize (IH He). assert (Hn : nth_error (elements nodes) 0 = Some c) by now rewrite El. destruct (nth_throws Hn IH) as (k&E). unfold throws. destruct Ht as (n&Hin&->). cbn [In script_tags] in Hin. destruct Hin as [<-|[<-|[<-|[]]]].
    + rewrite (@layout_script _ _ Sub) by (reflexivity || (eexists; (split; [|reflexivity]); cbn; tauto)). eapply reading_panics. exact E.
    + rewrite (@layout_script _ _ Sup) by (reflexivity || (eexists; (split; [|reflexivity]); cbn; tauto)). eapply reading_panics. exact E.
    + rewrite layout_subsup. eapply reading_panics. exact E.
Qed.
(** Where an exception comes from *)
Lemma row_at_panic nodes j k : row_at nodes j = Panic k -> nth j (on_elements layout nodes) throw = Panic k.
Proof. unfold row_at. intros H. apply reading_panic in H as [H|(a&e&_&H)]; [exact H|discriminate]. Qed.
Lemma nth_panic nodes j k : nth j (on_elements layout nodes) throw = Panic k -> j < List.length (elements nodes) -> exists c, In c (elements nodes) /\ layout c = Panic k.
Proof.
  rewrite on_elements_map. intros H Hj. destruct (nth_error (elements nodes) j) as [c|] eqn:E; [|apply nth_error_None in E; lia]. exists c. split; [eapply nth_error_In; eauto|].
  erewrite nth_error_nth in H; [exact H|]. now rewrite nth_error_map, E.
Qed.
Lemma expect_panic tag nodes n r k : expect tag nodes n r = Panic k -> List.length (elements nodes) = n /\ r = Panic k.
Proof. unfold expect, expect_children. rewrite on_elements_map, map_length. destruct (_ =? _) eqn:E; [|discriminate]. intros H. apply Nat.eqb_eq in E. auto. Qed.
Ltac panic_in H := repeat first [apply reading_panic in H as [H|(?&?&?&H)]; [|try discriminate H] | apply row_at_panic in H].
Lemma panic_origin x : is_element x = true -> throws x -> empty_script x \/ (exists c, is_element c = true /\ throws c /\ (kept_child x c \/ exists tag nodes l, x = XmlElement tag nodes /\ tag_in tag script_tags /\ elements nodes = c :: l)).
Proof.
  destruct x as [s|tag nodes]; [discriminate|]. intros _ (k&H).
  assert (Hin : forall c, In c (elements nodes) -> layout c = Panic k -> kept_child (XmlElement tag nodes) c -> exists c, is_element c = true /\ throws c /\ (kept_child (XmlElement tag nodes) c \/ exists tag' nodes' l, XmlElement tag nodes = XmlElement tag' nodes' /\ tag_in tag' script_tags /\ elements nodes' = c :: l)).
  { intros c Hc E Hk. exists c. destruct (in_elements Hc) as (_&t&l&->). split; [reflexivity|]. split; [exists k; exact E|now left]. }
  assert (Hpart : forall j n, nth j (on_elements layout nodes) throw = Panic k -> parts tag n -> List.length (elements nodes) = n -> j < n -> exists c, is_element c = true /\ throws c /\ (kept_child (XmlElement tag nodes) c \/ exists tag' nodes' l, XmlElement tag nodes = XmlElement tag' nodes' /\ tag_in tag' script_tags /\ elements nodes' = c :: l)).
  { intros j n E Hp Hn Hj. subst n. destruct (nth_panic E Hj) as (c&Hc&Ec). apply (Hin c Hc Ec). eapply kept_part; eauto. }
  assert (Hbase : tag_in tag script_tags -> nth 0 (on_elements layout nodes) throw = Panic k -> empty_script (XmlElement tag nodes) \/ exists c, is_element c = true /\ throws c /\ (kept_child (XmlElement tag nodes) c \/ exists tag' nodes' l, XmlElement tag nodes = XmlElement tag' nodes' /\ tag_in tag' script_tags /\ elements nodes' = c :: l)).
  { intros Ht E. destruct (elements nodes) as [|c l] eqn:El; [left; exists tag, nodes; auto|]. right. exists c. assert (Hc : In c (elements nodes)) by (rewrite El; now left). destruct (in_elements Hc) as (_&t&l'&->).
    split; [reflexivity|]. split; [exists k; rewrite on_elements_map, El in E; exact E|]. right. exists tag, nodes, l. auto. }
  assert (Hall : forall A B (f : list MathLayout -> Reading A) (g : A -> Reading B), (forall a e, read_all (on_elements layout nodes) = Ok (a, e) -> forall k, f a <> Panic k) -> (forall a k, g a <> Panic k) -> reading (reading (read_all (on_elements layout nodes)) f) g = Panic k -> exists c, In c (elements nodes) /\ layout c = Panic k).
  { intros A B f g Hf Hg E. apply reading_panic in E as [E|(a&e&_&E)]; [|now apply Hg in E]. apply reading_panic in E as [E|(a&e&E0&E)]; [|now eapply Hf in E; eauto]. apply read_all_panic in E as (r&Hr&->). rewrite on_elements_map in Hr. apply in_map_iff in Hr as (c&Ec&Hc). eauto. }
  destruct (tag_split tag) as [Ht|[Ht|[Ht|[Ht|[Ht|[Ht|Ht]]]]]].
  - rewrite (layout_unknown nodes Ht) in H. discriminate.
  - rewrite (layout_text nodes Ht) in H. discriminate.
  - rewrite (layout_quoted nodes Ht) in H. discriminate.
  - rewrite (layout_flat nodes Ht) in H. right. apply Hall in H as (c&Hc&Ec); [|discriminate|discriminate]. apply (Hin c Hc Ec). apply kept_row; [|exact Hc]. destruct Ht as (n&Hn&->). exists n. split; [cbn in *; tauto|reflexivity].
  - assert (Hs : exists v, scripts_of tag = [v]) by (destruct Ht as (n&[<-|[<-|[]]]&->); eexists; reflexivity). destruct Hs as (v&Hv).
    assert (Hp : parts tag 2) by (destruct Ht as (n&Hn&->); apply parts_two; cbn in *; tauto). assert (Hst : tag_in tag script_tags) by (destruct Ht as (n&Hn&->); exists n; split; [cbn in *; tauto|reflexivity]).
    rewrite (layout_script nodes Ht Hv) in H. apply reading_panic in H as [H|(a&e&_&H)]; [now apply Hbase|]. right. apply expect_panic in H as [Hn H]. panic_in H. eapply Hpart; eauto.
  - assert (Hs : exists v, scripts_of tag = [v]) by (destruct Ht as (n&[<-|[<-|[]]]&->); eexists; reflexivity). destruct Hs as (v&Hv).
    assert (Hp : parts tag 2) by (destruct Ht as (n&Hn&->); apply parts_two; cbn in *; tauto). right.
    rewrite (layout_under nodes Ht Hv) in H. apply expect_panic in H as [Hn H]. panic_in H; eapply Hpart; eauto.
  - cbn [In] in Ht. destruct Ht as [<-|[<-|[<-|[<-|[<-|[<-|[<-|[<-|[]]]]]]]]].
    + rewrite layout_sqrt in H. right. apply Hall in H as (c&Hc&Ec); [|discriminate|discriminate]. apply (Hin c Hc Ec). apply kept_row; [|exact Hc]. eexists. split; [|reflexivity]. cbn. tauto.
    + right. destruct (elements nodes) as [|c l] eqn:El; [rewrite layout_semantics' in H by (rewrite on_elements_map, El; reflexivity); discriminate|].
      rewrite layout_semantics in H by (rewrite on_elements_map, El; cbn; lia). rewrite on_elements_map, El in H. apply (Hin c); [now left|exact H|]. eapply kept_semantics; eauto.
    + right. rewrite layout_frac in H. apply expect_panic in H as [Hn H]. apply reading_panic in H as [H|(a&e&_&H)]; [|discriminate]. apply read_all_panic in H as (r&Hr&->). apply in_map_iff in Hr as (r'&Er&Hr). rewrite on_elements_map in Hr. apply in_map_iff in Hr as (c&<-&Hc).
      apply reading_panic in Er as [Er|(a&e&_&Er)]; [|discriminate]. apply (Hin c Hc Er). eapply kept_part; [|exact Hn|exact Hc]. apply parts_two. cbn. tauto.
    + right. rewrite layout_root in H. apply expect_panic in H as [Hn H]. panic_in H; (eapply Hpart; [exact H|apply parts_two; cbn; tauto|exact Hn|lia]).
    + rewrite layout_subsup in H. apply reading_panic in H as [H|(a&e&_&H)]; [apply Hbase; [|exact H]; eexists; (split; [|reflexivity]); cbn; tauto|]. right. apply expect_panic in H as [Hn H]. panic_in H; (eapply Hpart; [exact H|apply parts_three; cbn; tauto|exact Hn|lia]).
    + right. rewrite layout_underover in H. apply expect_panic in H as [Hn H]. panic_in H; (eapply Hpart; [exact H|apply parts_three; cbn; tauto|exact Hn|lia]).
    + right. rewrite layout_table in H. destruct (table_shape_b nodes) eqn:Hs; [|discriminate]. apply table_shape_iff in Hs. apply reading_panic in H as [H|(a&e&_&H)]; [|discriminate]. apply read_all_panic in H as (r&Hr&->).
      apply in_flat_map in Hr as (line&Hl&Hr). rewrite table_lines_eq in Hl. apply in_map_iff in Hl as (ln&<-&Hl). destruct (in_elements Hl) as (_&t&cells&->).
      assert (exists c, In c (elements cells) /\ layout c = Panic k) as (c&Hc&Ec).
      { revert Hr. generalize (table_width nodes). generalize (elements cells). clear. induction l as [|c l IH]; intros w Hr.
        - exfalso. induction w as [|w IH]; [destruct Hr|]. cbn in Hr. destruct Hr as [E|Hr]; [discriminate|auto].
        - destruct w as [|w]; [destruct Hr|]. cbn [map table_line] in Hr. destruct Hr as [E|Hr]; [|destruct (IH w Hr) as (c'&Hc&E); exists c'; split; [now right|exact E]].
          apply reading_panic in E as [E|(a&e&_&E)]; [|discriminate]. exists c. split; [now left|exact E]. }
      exists c. destruct (in_elements Hc) as (_&t'&l&->). split; [reflexivity|]. split; [exists k; exact Ec|]. left. eapply kept_cell; eauto.
    + rewrite layout_style in H. discriminate.
Qed.
Lemma throws_iff x : is_element x = true -> (throws x <-> exists y, looked_at x y /\ empty_script y).
Proof.
  intros Hx. split; [|intros (y&H1&H2); eapply looked_throws; eauto]. revert Hx.
  enough (Q : (is_element x = true -> throws x -> exists y, looked_at x y /\ empty_script y) /\ forall tag nodes, x = XmlElement tag nodes -> forall c, In c nodes -> is_element c = true -> throws c -> exists y, looked_at c y /\ empty_script y) by tauto.
  induction x as [s|tag nodes IH] using xml_ind'; [split; discriminate|].
  assert (Hin : forall c, In c nodes -> is_element c = true -> throws c -> exists y, looked_at c y /\ empty_script y) by (intros c Hc; apply IH, Hc). split; [|intros t l E; inv E; auto].
  intros Hx Ht. destruct (panic_origin Hx Ht) as [He|(c&Hc&Htc&[Hk|(t&l&l'&E&Hs&El)])].
  - exists (XmlElement tag nodes). split; [constructor|exact He].
  - assert (exists y, looked_at c y /\ empty_script y) as (y&Hy&He).
    { pose proof (kept_child_in Hk) as (t'&l'&->&[Hi|(t&cells&H1&H2)]); [auto|]. destruct (IH _ H1) as [_ H3]. eapply H3; eauto. }
    exists y. split; [|exact He]. eapply looked_below; eauto.
  - inv E. assert (Hi : In c l) by (apply in_parts; rewrite El; now left). destruct (Hin c Hi Hc Htc) as (y&Hy&He). exists y. split; [|exact He]. eapply looked_base; eauto.
Qed.

(** ** Symbols and the number of cells *)
Definition good_row (row : InputRow) : Prop := (forall s, In s (row_symbols row) -> s <> []) /\ everywhere two_cells row.
Definition good_node (n : InputNode) : Prop :=
  match n with
  | Symbol s => s <> []
  | Container v g => (v = Fraction \/ v = RootV -> List.length (gvalues g) = 2) /\ Forall good_row (gvalues g)
  end.
Lemma good_nodes row : good_row row <-> forall n, In n row -> good_node n.
Proof.
  split.
  - intros [H1 H2] n Hn. destruct n as [v g|s].
    + apply In_nth_error in Hn as (k&E). split; [intros Hv; exact (H2 [] row eq_refl k v g E Hv)|]. apply Forall_forall. intros cell Hc. split.
      * intros s Hs. apply H1. apply in_row_symbols. exists (Container v g). split; [eapply nth_error_In; eauto|]. eapply in_cell_symbols; eauto.
      * apply In_nth_error in Hc as (j&Ej). intros p r Hr. apply (H2 ((k, j) :: p)). cbn. rewrite E, Ej. exact Hr.
    + apply H1. apply in_row_symbols. exists (Symbol s). split; [exact Hn|now left].
  - intros H. split.
    + intros s Hs. apply in_row_symbols in Hs as (n&Hn&Hs). apply H in Hn. destruct n as [v [cells w]|s']; [|destruct Hs as [<-|[]]; exact Hn].
      rewrite node_symbols_container in Hs. destruct Hn as [_ Hc]. apply in_row_symbols in Hs as (n&Hn&Hs). apply in_concat in Hn as (cell&Hcell&Hn). rewrite Forall_forall in Hc. apply (Hc _ Hcell). apply in_row_symbols. eauto.
    + intros [|[k j] p] r E; cbn in E.
      * inv E. intros k v c Ek Hv. apply nth_error_In, H in Ek. now apply Ek.
      * destruct (nth_error row k) as [[v g|s]|] eqn:Ek; try discriminate. destruct (nth_error (gvalues g) j) as [cell|] eqn:Ej; [|discriminate]. apply nth_error_In, H in Ek as [_ Hc]. rewrite Forall_forall in Hc. exact (proj2 (Hc _ (nth_error_In _ _ Ej)) p r E).
Qed.
Lemma good_nil : good_row [].
Proof. apply good_nodes. intros n []. Qed.
Lemma good_app a b : good_row a -> good_row b -> good_row (a ++ b).
Proof. rewrite !good_nodes. intros Ha Hb n Hn. apply in_app_or in Hn as [Hn|Hn]; auto. Qed.
Lemma good_concat rows : Forall good_row rows -> good_row (concat rows).
Proof. induction 1; cbn [concat]; [apply good_nil|now apply good_app]. Qed.
Lemma good_container v cells w : (v = Fraction \/ v = RootV -> List.length cells = 2) -> Forall good_row cells -> good_row [Container v (mkGrid cells w)].
Proof. intros H1 H2. apply good_nodes. intros n [<-|[]]. split; auto. Qed.
Hypothesis Hsegment : forall s t, In t (segment s) -> t <> [].
Hypothesis Hnormalize : forall s, s <> [] -> normalize s <> [].
Lemma good_sym s : s <> [] -> good_row [sym s].
Proof. intros H. apply good_nodes. intros n [<-|[]]. cbn. auto. Qed.
Lemma good_texts x : good_row (texts_of x).
Proof. apply good_nodes. intros n Hn. apply in_map_iff in Hn as (s&<-&Hs). cbn. eauto. Qed.
Lemma good_layouts e cs rows : (forall c, In c cs -> forall row, layout_of e c row -> good_row row) -> Forall2 (layout_of e) cs rows -> Forall good_row rows.
Proof.
  intros IH HF. induction HF as [|c row cs rows Hc HF IHF]; [constructor|]. constructor; [eapply IH; eauto; now left|apply IHF]. intros c' Hin. apply IH. now right.
Qed.
Lemma good_layout x : forall e row, layout_of e x row -> good_row row.
Proof.
  induction x as [x IH] using kept_induct. intros e row (l&e'&E&->&_). apply layout_view in E. inv E.
  - apply good_texts.
  - apply (@good_app [sym [34%N]]); [apply good_sym; discriminate|]. apply good_app; [apply good_texts|apply good_sym; discriminate].
  - apply good_concat. eapply good_layouts; [|eassumption]. intros c Hc row Hr. refine (IH c _ _ _ Hr). apply kept_row; [|exact Hc]. match goal with H : tag_in _ _ |- _ => destruct H as (n&H&->); exists n; split; [cbn in *; tauto|reflexivity] end.
  - apply good_container; [reflexivity|]. constructor; [apply good_sym; discriminate|]. constructor; [|constructor]. apply good_concat. eapply good_layouts; [|eassumption]. intros c Hc row Hr. refine (IH c _ _ _ Hr). apply kept_row; [|exact Hc]. eexists. split; [|reflexivity]. cbn. tauto.
  - match goal with H : layout_of _ _ _ |- _ => refine (IH c _ _ _ H) end. eapply kept_semantics; eauto.
  - match goal with H : elements _ = _ |- _ => rename H into El end. apply good_container; [reflexivity|]. constructor; [|constructor; [|constructor]]; [match goal with H : layout_of _ a _ |- _ => refine (IH a _ _ _ H) end|match goal with H : layout_of _ b _ |- _ => refine (IH b _ _ _ H) end]; (eapply kept_part; [apply parts_two; cbn; tauto|rewrite El; reflexivity|rewrite El; cbn; tauto]).
  - match goal with H : elements _ = _ |- _ => rename H into El end. apply good_container; [reflexivity|]. constructor; [|constructor; [|constructor]]; [match goal with H : layout_of _ b _ |- _ => refine (IH b _ _ _ H) end|match goal with H : layout_of _ a _ |- _ => refine (IH a _ _ _ H) end]; (eapply kept_part; [apply parts_two; cbn; tauto|rewrite El; reflexivity|rewrite El; cbn; tauto]).
  - match goal with H : elements _ = _ |- _ => rename H into El end. assert (Hp : parts tag 2) by (match goal with H : tag_in _ _ |- _ => destruct H as (n&H&->); apply parts_two; cbn in *; tauto end).
    assert (Hv : v = Sub \/ v = Sup). { match goal with H : scripts_of tag = _ |- _ => revert H end. unfold scripts_of. destruct (tag_is _ _); [intros E; inv E; auto|]. destruct (tag_is _ _); intros E; inv E; auto. }
    apply good_app; [|apply good_container; [intros [->| ->]; destruct Hv; discriminate|constructor; [|constructor]]]; [match goal with H : layout_of _ a _ |- _ => refine (IH a _ _ _ H) end|match goal with H : layout_of _ b _ |- _ => refine (IH b _ _ _ H) end];
      (eapply kept_part; [exact Hp|rewrite El; reflexivity|rewrite El; cbn; tauto]).
  - match goal with H : elements _ = _ |- _ => rename H into El end. assert (Hp : parts tag 3) by (match goal with H : tag_in _ _ |- _ => destruct H as (n&H&->); apply parts_three; cbn in *; tauto end).
    change [script_node Sub rb; script_node Sup rc] with ([script_node Sub rb] ++ [script_node Sup rc]).
    apply good_app; [|apply good_app; (apply good_container; [intros [E|E]; discriminate|constructor; [|constructor]])]; [match goal with H : layout_of _ a _ |- _ => refine (IH a _ _ _ H) end|match goal with H : layout_of _ b _ |- _ => refine (IH b _ _ _ H) end|match goal with H : layout_of _ c _ |- _ => refine (IH c _ _ _ H) end];
      (eapply kept_part; [exact Hp|rewrite El; reflexivity|rewrite El; cbn; tauto]).
  - apply good_container; [intros [E|E]; discriminate|]. match goal with H : table_shape _ |- _ => rename H into Hs end. match goal with H : Forall2 _ _ _ |- _ => rename H into HF end.
    assert (IH' : forall t cells, In (XmlElement t cells) (elements nodes) -> forall c, In c (elements cells) -> forall row, layout_of e' c row -> good_row row) by (intros t cells H1 c H2 row Hr; refine (IH c _ _ _ Hr); eapply kept_cell; eauto).
    clear - HF IH'. induction HF as [|line rows nodes' lines (Hl&t&cells&->&Hle&HF1&HF2) HF IH]; [constructor|]. cbn [concat]. apply Forall_app. split; [|apply IH; eauto using in_cons].
    rewrite <- (firstn_skipn (List.length (elements cells)) rows). apply Forall_app. split; [eapply good_layouts; [|exact HF1]; eapply IH'; now left|]. eapply Forall_impl; [|exact HF2]. intros r ->. apply good_nil.
  - apply good_nil.
  - apply good_sym. discriminate.
Qed.

(** ** Texts *)
Section Texts.
Variable R : list str -> list str -> list str -> Prop.
Hypothesis R_nil : R [] [] [].
Hypothesis R_left : forall a, R a [] a.
Hypothesis R_right : forall a, R [] a a.
Hypothesis R_app : forall a b c a' b' c', R a b c -> R a' b' c' -> R (a ++ a') (b ++ b') (c ++ c').
Definition swaps : Prop := forall a a' b c, R (a ++ a') b c -> R (a' ++ a) b c.
(** Elements that lose nothing *)
Definition honest (x : Xml) : Prop := forall tag nodes, inside x (XmlElement tag nodes) ->
  tag <> lit "mstyle" /\ (tag = lit "semantics" -> flat_map token_texts (tl (elements nodes)) = []) /\ (tag = lit "mroot" -> swaps).
Definition text_symbols_of (x : Xml) : list str := flat_map (fun t => map normalize (segment t)) (token_texts x).
Definition extra (s : str) : Prop := s = normalize [34%N] \/ s = normalize (lit "2").
Definition told (x : Xml) (row : InputRow) : Prop := exists extras, R (text_symbols_of x) extras (row_symbols row) /\ Forall extra extras.
Lemma token_elements nodes : flat_map token_texts nodes = flat_map token_texts (elements nodes).
Proof. induction nodes as [|[s|tag l] nodes IH]; [reflexivity|exact IH|]. cbn [elements filter is_element flat_map]. f_equal. exact IH. Qed.
Lemma told_concat e cs rows : (forall c, In c cs -> forall row, layout_of e c row -> told c row) -> Forall2 (layout_of e) cs rows ->
  exists extras, R (flat_map (fun t => map normalize (segment t)) (flat_map token_texts cs)) extras (row_symbols (concat rows)) /\ Forall extra extras.
Proof.
  intros IH HF. induction HF as [|c row cs rows Hc HF IHF]; [exists []; split; [apply R_nil|constructor]|].
  destruct IHF as (ex&H1&H2); [intros c' Hin; apply IH; now right|]. destruct (IH c (or_introl eq_refl) _ Hc) as (ex'&H3&H4).
  exists (ex' ++ ex). split; [|apply Forall_app; auto]. cbn [flat_map concat]. rewrite flat_map_app, row_symbols_app. apply R_app; assumption.
Qed.
Lemma symbols_one v cells w : row_symbols [Container v (mkGrid cells w)] = row_symbols (concat cells).
Proof. rewrite row_symbols_cons, node_symbols_container. unfold row_symbols at 2. cbn. apply app_nil_r. Qed.
Lemma symbols_texts l : row_symbols (map (fun s => sym s) l) = map normalize l.
Proof. induction l as [|s l IH]; [reflexivity|]. cbn [map]. rewrite row_symbols_cons. cbn. now rewrite IH. Qed.
Lemma token_other tag nodes : is_token tag = false -> text_symbols_of (XmlElement tag nodes) = flat_map (fun t => map normalize (segment t)) (flat_map token_texts (elements nodes)).
Proof. intros H. unfold text_symbols_of. cbn [token_texts]. now rewrite H, token_elements. Qed.
Lemma token_text tag nodes : tag_in tag ["mi"; "mn"; "mo"; "mtext"; "ms"]%string -> text_symbols_of (XmlElement tag nodes) = map normalize (segment (trim (text_content (XmlElement tag nodes)))).
Proof.
  intros Ht. unfold text_symbols_of. cbn [token_texts]. assert (E : is_token tag = true) by (apply (tag_is_iff tag token_tags); exact Ht). rewrite E. cbn [flat_map]. now rewrite app_nil_r.
Qed.
Lemma honest_below tag nodes c : honest (XmlElement tag nodes) -> In c nodes -> honest c.
Proof. intros H Hc t l Hi. apply H. eapply inside_below; eauto. Qed.
Lemma honest_child x c : honest x -> kept_child x c -> honest c.
Proof.
  intros H Hk. destruct x as [s|tag nodes]; [inv Hk|]. apply kept_child_in in Hk as (t'&l'&_&[Hc|(t&cells&H1&H2)]); [exact (honest_below H Hc)|exact (honest_below (honest_below H H1) H2)].
Qed.
Ltac other := match goal with H : tag_in _ _ |- _ => let n := fresh in destruct H as (n&H&->); cbn [In] in H; repeat (destruct H as [<-|H]); try contradiction; reflexivity end.
Lemma told_layout x : honest x -> forall row, layout_of [] x row -> told x row.
Proof.
  induction x as [x IH] using kept_induct. intros Hh row (l&e'&E&->&He). specialize (He eq_refl). subst e'. apply layout_view in E.
  assert (IH' : forall c, kept_child x c -> forall row, layout_of [] c row -> told c row) by (intros c Hc; apply (IH c Hc), (honest_child Hh Hc)). clear IH. rename IH' into IH. inv E.
  - exists []. split; [|constructor]. unfold texts_of. rewrite symbols_texts. rewrite token_text; [apply R_left|]. match goal with H : tag_in _ _ |- _ => destruct H as (n&H&->); exists n; split; [cbn in *; tauto|reflexivity] end.
  - exists [normalize [34%N]; normalize [34%N]]. split; [|repeat constructor]. unfold texts_of. rewrite token_text by (match goal with H : tag_in _ _ |- _ => destruct H as (n&H&->); exists n; split; [cbn in *; tauto|reflexivity] end).
    rewrite row_symbols_cons, row_symbols_app, symbols_texts. change (row_symbols [sym [34%N]]) with [normalize [34%N]]. change (node_symbols (sym [34%N])) with [normalize [34%N]].
    rewrite <- (app_nil_l (map normalize _)) at 1. change [normalize [34%N]; normalize [34%N]] with ([normalize [34%N]] ++ [normalize [34%N]]). apply R_app; [apply R_right|].
    rewrite <- (app_nil_r (map normalize _)) at 1. change [normalize [34%N]] with ([] ++ [normalize [34%N]]) at 1. apply R_app; [apply R_left|apply R_right].
  - unfold told. rewrite token_other by other. eapply told_concat; [|eassumption]. intros c Hc row Hr. refine (IH c _ _ Hr). apply kept_row; [|exact Hc]. match goal with H : tag_in _ _ |- _ => destruct H as (n&H&->); exists n; split; [cbn in *; tauto|reflexivity] end.
  - unfold told. rewrite token_other by reflexivity. destruct (@told_concat [] (elements nodes) rows) as (ex&X1&X2); [|assumption|].
    { intros c Hc row Hr. refine (IH c _ _ Hr). apply kept_row; [|exact Hc]. eexists. split; [|reflexivity]. cbn. tauto. }
    exists ([normalize (lit "2")] ++ ex). split; [|constructor; [now right|exact X2]]. rewrite symbols_one. cbn [concat]. rewrite app_nil_r, row_symbols_app.
    rewrite <- (app_nil_l (flat_map _ (flat_map _ _))). apply R_app; [apply R_right|exact X1].
  - destruct (Hh _ _ (inside_self _)) as (_&Hs&_). specialize (Hs eq_refl). match goal with H : elements _ = _ |- _ => rename H into El end. rewrite El in Hs. cbn [tl] in Hs.
    unfold told. rewrite token_other by reflexivity. rewrite El. cbn [flat_map]. rewrite Hs, app_nil_r. eapply IH; [eapply kept_semantics; eauto|assumption].
  - match goal with H : elements _ = _ |- _ => rename H into El end. unfold told. rewrite token_other by reflexivity. rewrite symbols_one, El. eapply (@told_concat [] [a; b] [ra; rb]); [|repeat constructor; assumption]. rewrite <- El. intros c Hc row Hr. refine (IH c _ _ Hr). eapply kept_part; [apply parts_two; cbn; tauto|now rewrite El|exact Hc].
  - destruct (Hh _ _ (inside_self _)) as (_&_&Hsw). specialize (Hsw eq_refl). match goal with H : elements _ = _ |- _ => rename H into El end. unfold told. rewrite token_other by reflexivity. rewrite symbols_one, El. destruct (@told_concat [] [b; a] [rb; ra]) as (ex&X1&X2); [|repeat constructor; assumption|].
    + intros c Hc row Hr. refine (IH c _ _ Hr). eapply kept_part; [apply parts_two; cbn; tauto|now rewrite El|rewrite El; cbn in *; tauto].
    + exists ex. split; [|exact X2]. cbn [flat_map] in *. rewrite !flat_map_app in *. cbn [flat_map] in *. rewrite !app_nil_r in *. apply Hsw. exact X1.
  - match goal with H : elements _ = _ |- _ => rename H into El end. assert (Hp : parts tag 2) by (match goal with H : tag_in _ _ |- _ => destruct H as (n&H&->); apply parts_two; cbn in *; tauto end).
    unfold told. rewrite token_other by other. rewrite row_symbols_app. unfold script_node. rewrite symbols_one, El. cbn [concat]. rewrite app_nil_r, <- row_symbols_app.
    rewrite <- (app_nil_r rb). eapply (@told_concat [] [a; b] [ra; rb]); [|repeat constructor; assumption]. rewrite <- El. intros c Hc row Hr. refine (IH c _ _ Hr). eapply kept_part; [exact Hp|now rewrite El|exact Hc].
  - match goal with H : elements _ = _ |- _ => rename H into El end. assert (Hp : parts tag 3) by (match goal with H : tag_in _ _ |- _ => destruct H as (n&H&->); apply parts_three; cbn in *; tauto end).
    unfold told. rewrite token_other by other. change [script_node Sub rb; script_node Sup rc] with ([script_node Sub rb] ++ [script_node Sup rc]). rewrite !row_symbols_app. unfold script_node. rewrite !symbols_one, El. cbn [concat]. rewrite !app_nil_r, <- !row_symbols_app.
    rewrite <- (app_nil_r rc). eapply (@told_concat [] [a; b; c] [ra; rb; rc]); [|repeat constructor; assumption]. rewrite <- El. intros c' Hc row Hr. refine (IH c' _ _ Hr). eapply kept_part; [exact Hp|now rewrite El|exact Hc].
  - unfold told. rewrite token_other by reflexivity. rewrite symbols_one. match goal with H : table_shape _ |- _ => rename H into Hs end. match goal with H : Forall2 _ _ _ |- _ => rename H into HF end.
    assert (IH' : forall t cells, In (XmlElement t cells) (elements nodes) -> t = lit "mtr" /\ forall c, In c (elements cells) -> forall row, layout_of [] c row -> told c row).
    { intros t cells H1. split; [destruct (Hs _ H1) as (l0&E&_); now inv E|]. intros c H2 row Hr. refine (IH c _ _ Hr). eapply kept_cell; eauto. }
    clear - HF IH' R_nil R_app. induction HF as [|line rows nodes' lines (Hl&t&cells&->&Hle&HF1&HF2) HF IH]; [exists []; split; [apply R_nil|constructor]|].
    destruct IH as (ex&X1&X2); [eauto using in_cons|]. destruct (IH' t cells (or_introl eq_refl)) as [-> IHc]. destruct (told_concat IHc HF1) as (ex'&Y1&Y2). exists (ex' ++ ex). split; [|apply Forall_app; auto].
    cbn [concat flat_map token_texts]. change (is_token (lit "mtr")) with false. rewrite flat_map_app, concat_app, row_symbols_app. rewrite token_elements. apply R_app; [|exact X1].
    rewrite <- (firstn_skipn (List.length (elements cells)) rows). rewrite concat_app, row_symbols_app. replace (concat (skipn (List.length (elements cells)) rows)) with (@nil InputNode); [rewrite app_nil_r; exact Y1|].
    clear - HF2. induction HF2 as [|r l -> _ IH]; [reflexivity|]. exact IH.
  - destruct (Hh _ _ (inside_self _)) as (Hn&_). congruence.
  - congruence.
Qed.
End Texts.

Lemma interleaved_all {A} (a : list A) : interleaved a [] a.
Proof. induction a; constructor; auto. Qed.
Lemma interleaved_none {A} (a : list A) : interleaved [] a a.
Proof. induction a; constructor; auto. Qed.
Lemma interleaved_app {A} (a b c a' b' c' : list A) : interleaved a b c -> interleaved a' b' c' -> interleaved (a ++ a') (b ++ b') (c ++ c').
Proof. intros H H'. induction H; cbn [app]; [exact H'|constructor; auto|constructor; auto]. Qed.
Lemma told_in_order x row : layout_of [] x row ->
  (forall tag nodes, inside x (XmlElement tag nodes) -> tag <> lit "mstyle" /\ (tag = lit "semantics" -> flat_map token_texts (tl (elements nodes)) = []) /\ tag <> lit "mroot") ->
  exists extras, interleaved (text_symbols_of x) extras (row_symbols row) /\ Forall extra extras.
Proof.
  intros HL H. apply (@told_layout (@interleaved str)); [constructor|apply interleaved_all|apply interleaved_none|intros; now apply interleaved_app| |exact HL].
  intros tag nodes Hi. destruct (H _ _ Hi) as (H1&H2&H3). split; [exact H1|]. split; [exact H2|]. intros E. contradiction.
Qed.
Lemma told_permuted x row : layout_of [] x row ->
  (forall tag nodes, inside x (XmlElement tag nodes) -> tag <> lit "mstyle" /\ (tag = lit "semantics" -> flat_map token_texts (tl (elements nodes)) = [])) ->
  exists extras, Permutation (text_symbols_of x ++ extras) (row_symbols row) /\ Forall extra extras.
Proof.
  intros HL H. apply (@told_layout (fun a b c => Permutation (a ++ b) c)); [constructor|intros; rewrite app_nil_r; reflexivity|intros; reflexivity| | |exact HL].
  - intros a b c a' b' c' H1 H2. rewrite <- H1, <- H2, <- !app_assoc. apply Permutation_app_head. rewrite !app_assoc. apply Permutation_app_tail, Permutation_app_comm.
  - intros tag nodes Hi. destruct (H _ _ Hi) as (H1&H2). split; [exact H1|]. split; [exact H2|]. intros _ a a' b c <-. apply Permutation_app_tail, Permutation_app_comm.
Qed.
(** ** All symbols *)
Lemma shown_parts nodes : flat_map (fun c => match c with XmlText _ => [] | XmlElement _ _ => [shown segment c] end) nodes = map (shown segment) (elements nodes).
Proof. induction nodes as [|[s|tag l] nodes IH]; [reflexivity|exact IH|]. cbn [flat_map elements filter is_element map app]. f_equal. exact IH. Qed.
Definition exactly (x : Xml) (row : InputRow) : Prop := row_symbols row = map normalize (shown segment x).
Lemma exactly_concat e cs rows : (forall c, In c cs -> forall row, layout_of e c row -> exactly c row) -> Forall2 (layout_of e) cs rows ->
  row_symbols (concat rows) = map normalize (concat (map (shown segment) cs)).
Proof.
  intros IH HF. induction HF as [|c row cs rows Hc HF IHF]; [reflexivity|].
  cbn [map concat]. rewrite row_symbols_app, map_app. f_equal; [apply (IH c (or_introl eq_refl) _ Hc)|]. apply IHF. intros c' Hin. apply IH. now right.
Qed.
Lemma shown_flat tag nodes : tag_in tag ["math"; "mrow"; "mtd"; "mtr"; "mtable"; "mfrac"; "msub"; "msup"; "munder"; "mover"; "msubsup"; "munderover"]%string ->
  shown segment (XmlElement tag nodes) = concat (map (shown segment) (elements nodes)).
Proof. intros H. rewrite <- shown_parts. destruct H as (n&H&->). cbn [In] in H. repeat (destruct H as [<-|H]; [reflexivity|]). destruct H. Qed.
Ltac widen := match goal with H : tag_in _ _ |- tag_in _ _ => let n := fresh in destruct H as (n&H&->); exists n; split; [cbn in *; tauto|reflexivity] | |- tag_in _ _ => eexists; split; [|reflexivity]; cbn; tauto end.
Lemma exactly_layout x : forall row, layout_of [] x row -> exactly x row.
Proof.
  induction x as [x IH] using kept_induct. intros row (l&e'&E&->&He). specialize (He eq_refl). subst e'. apply layout_view in E. unfold exactly. inv E.
  - unfold texts_of. rewrite symbols_texts. match goal with H : tag_in _ _ |- _ => destruct H as (n&H&->); cbn [In] in H; repeat (destruct H as [<-|H]; [reflexivity|]); destruct H end.
  - unfold texts_of. rewrite row_symbols_cons, row_symbols_app, symbols_texts. match goal with H : tag_in _ _ |- _ => destruct H as (n&H&->); cbn [In] in H end.
    match goal with H : _ \/ _ |- _ => destruct H as [<-|[<-|[]]] end; cbn [shown]; [change (existsb (fun name => str_eqb (lit "mtext") (lit name)) ["mtext"; "ms"]%string) with true|change (existsb (fun name => str_eqb (lit "ms") (lit name)) ["mtext"; "ms"]%string) with true]; cbn [app map]; rewrite map_app; reflexivity.
  - rewrite shown_flat by widen. eapply exactly_concat; [|eassumption]. intros c Hc row Hr. refine (IH c _ _ Hr). apply kept_row; [|exact Hc]. widen.
  - rewrite symbols_one. cbn [concat]. rewrite app_nil_r, row_symbols_app. change (shown segment (XmlElement (lit "msqrt") nodes)) with (lit "2" :: concat (flat_map (fun c => match c with XmlText _ => [] | XmlElement _ _ => [shown segment c] end) nodes)).
    rewrite shown_parts. cbn [map]. apply (f_equal (cons (normalize (lit "2")))). eapply exactly_concat; [|eassumption]. intros c Hc row Hr. refine (IH c _ _ Hr). apply kept_row; [|exact Hc]. widen.
  - match goal with H : elements _ = _ |- _ => rename H into El end. change (shown segment (XmlElement (lit "semantics") nodes)) with (hd [] (flat_map (fun c => match c with XmlText _ => [] | XmlElement _ _ => [shown segment c] end) nodes)).
    rewrite shown_parts, El. cbn [map hd]. eapply IH; [eapply kept_semantics; eauto|eassumption].
  - match goal with H : elements _ = _ |- _ => rename H into El end. rewrite symbols_one, shown_flat by widen. eapply exactly_concat; [|rewrite El; repeat constructor; eassumption].
    intros c Hc row Hr. refine (IH c _ _ Hr). eapply kept_part; [apply parts_two; cbn; tauto|now rewrite El|exact Hc].
  - match goal with H : elements _ = _ |- _ => rename H into El end. rewrite symbols_one. change (shown segment (XmlElement (lit "mroot") nodes)) with (concat (rev (flat_map (fun c => match c with XmlText _ => [] | XmlElement _ _ => [shown segment c] end) nodes))).
    rewrite shown_parts, El. change (rev (map (shown segment) [a; b])) with (map (shown segment) [b; a]). eapply exactly_concat; [|repeat constructor; eassumption].
    intros c Hc row Hr. refine (IH c _ _ Hr). eapply kept_part; [apply parts_two; cbn; tauto|now rewrite El|rewrite El; cbn in *; tauto].
  - match goal with H : elements _ = _ |- _ => rename H into El end. assert (Hp : parts tag 2) by (match goal with H : tag_in _ _ |- _ => destruct H as (n&H&->); apply parts_two; cbn in *; tauto end).
    rewrite shown_flat by widen. rewrite row_symbols_app. unfold script_node. rewrite symbols_one, El. cbn [concat]. rewrite app_nil_r, <- row_symbols_app.
    rewrite <- (app_nil_r rb). eapply (@exactly_concat [] [a; b] [ra; rb]); [|repeat constructor; assumption]. rewrite <- El. intros c Hc row Hr. refine (IH c _ _ Hr). eapply kept_part; [exact Hp|now rewrite El|exact Hc].
  - match goal with H : elements _ = _ |- _ => rename H into El end. assert (Hp : parts tag 3) by (match goal with H : tag_in _ _ |- _ => destruct H as (n&H&->); apply parts_three; cbn in *; tauto end).
    rewrite shown_flat by widen. change [script_node Sub rb; script_node Sup rc] with ([script_node Sub rb] ++ [script_node Sup rc]). rewrite !row_symbols_app. unfold script_node. rewrite !symbols_one, El. cbn [concat]. rewrite !app_nil_r, <- !row_symbols_app.
    rewrite <- (app_nil_r rc). eapply (@exactly_concat [] [a; b; c] [ra; rb; rc]); [|repeat constructor; assumption]. rewrite <- El. intros c' Hc row Hr. refine (IH c' _ _ Hr). eapply kept_part; [exact Hp|now rewrite El|exact Hc].
  - rewrite symbols_one, shown_flat by widen. match goal with H : table_shape _ |- _ => rename H into Hs end. match goal with H : Forall2 _ _ _ |- _ => rename H into HF end.
    assert (IH' : forall t cells, In (XmlElement t cells) (elements nodes) -> t = lit "mtr" /\ forall c, In c (elements cells) -> forall row, layout_of [] c row -> exactly c row).
    { intros t cells H1. split; [destruct (Hs _ H1) as (l0&E&_); now inv E|]. intros c H2 row Hr. refine (IH c _ _ Hr). eapply kept_cell; eauto. }
    clear - HF IH'. induction HF as [|line rows nodes' lines (Hl&t&cells&->&Hle&HF1&HF2) HF IH]; [reflexivity|].
    specialize (IH ltac:(eauto using in_cons)). destruct (IH' t cells (or_introl eq_refl)) as [-> IHc]. pose proof (exactly_concat IHc HF1) as Y.
    cbn [concat map]. rewrite concat_app, row_symbols_app, map_app. f_equal; [|exact IH]. rewrite shown_flat by widen.
    rewrite <- (firstn_skipn (List.length (elements cells)) rows). rewrite concat_app, row_symbols_app. replace (concat (skipn (List.length (elements cells)) rows)) with (@nil InputNode); [cbn [row_symbols flat_map]; rewrite app_nil_r; exact Y|].
    clear - HF2. induction HF2 as [|r l -> _ IH]; [reflexivity|]. exact IH.
  - reflexivity.
  - congruence.
Qed.
End Import.

(** * The whole *)
Lemma from_element_layout normalize segment math row errors : from_element normalize segment math = Ok (row, errors) -> layout_of normalize segment errors math row.
Proof.
  destruct math as [s|tag nodes]; [discriminate|]. unfold from_element. intros H. apply bind_ok in H as (?&E&H). apply bind_ok in H as ([l e]&El&H).
  destruct l as [[row'|n]|l]; try discriminate. inv H. exists (One (ItemRow row)), errors. split; [exact El|]. split; [cbn; now rewrite app_nil_r|auto].
Qed.
Lemma from_element_throws normalize segment nodes :
  throws normalize segment (XmlElement (lit "math") nodes) <-> exists k, from_element normalize segment (XmlElement (lit "math") nodes) = Panic k.
Proof.
  unfold throws, from_element. change (assert_ (tag_is (lit "math") ["math"%string])) with (Ok tt). cbn [bind].
  destruct (to_math_layout normalize segment (XmlElement (lit "math") nodes)) as [[l e]|k] eqn:E.
  - split; intros (k&H); [discriminate|]. exfalso. rewrite layout_flat in E by (eexists; split; [|reflexivity]; cbn; tauto).
    apply reading_ok in E as (r&e1&e2&_&E&_). inv E. discriminate.
  - split; intros _; exists k; reflexivity.
Qed.
