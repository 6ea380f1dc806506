(** Reading what is drawn. *)
From Coq Require Import String.
From Verif Require Import Base Str Grid Node Focus Autocomplete Spec NameMap Syntax Pratt Grammar SyntaxFind Render Layout FromMathML SpecSyntax SpecPratt SpecRender SpecDom SpecSafety SpecReread BaseFacts TreeFacts ParseFacts ParseTotal GrammarFacts FindFacts NameMapFacts ShapeFacts RenderFacts LayoutFacts DomFacts SightFacts.
Open Scope list_scope.
Open Scope nat_scope.
Set Implicit Arguments.
Unset Strict Implicit.

Section Reread.
Variable normalize : str -> str.
Variable segment : str -> list str.
Variable plain : N -> Prop.
Hypothesis HS : legible normalize segment plain.
Local Notation layout := (to_math_layout normalize segment).
Local Notation phantoms k := (repeat (UnknownElement (lit "mphantom")) k).

(** ** Elements that are read *)
Definition reads_as (d : Dom) (r : InputRow) (k : nat) : Prop := exists l, layout (as_xml d) = Ok (l, phantoms k) /\ wrap_in_row l = r.
Definition list_reads (ds : list Dom) (rows : list InputRow) (k : nat) : Prop :=
  exists ls, read_all (map (fun d => layout (as_xml d)) ds) = Ok (ls, phantoms k) /\ map wrap_in_row ls = rows.
Lemma list_nil : list_reads [] [] 0.
Proof. exists []. split; reflexivity. Qed.
Lemma list_cons d r j ds rows k : reads_as d r j -> list_reads ds rows k -> list_reads (d :: ds) (r :: rows) (j + k).
Proof.
  intros (l&E&El) (ls&Es&Els). exists (l :: ls). split; [|cbn; now rewrite El, Els]. cbn [map read_all]. rewrite E. unfold reading at 1. cbn [bind].
  rewrite Es. unfold reading, read. cbn [bind]. now rewrite app_nil_r, <- repeat_app.
Qed.
Lemma list_app ds1 rows1 k1 ds2 rows2 k2 : list_reads ds1 rows1 k1 -> list_reads ds2 rows2 k2 -> list_reads (ds1 ++ ds2) (rows1 ++ rows2) (k1 + k2).
Proof.
  intros (l1&E1&R1) (l2&E2&R2). exists (l1 ++ l2). split; [|now rewrite map_app, R1, R2]. rewrite map_app. clear R1 R2. revert l1 k1 E1. induction (map (fun d => layout (as_xml d)) ds1) as [|r rs IH]; intros l1 k1 E1; cbn [read_all app] in *.
  - unfold read in E1. inv E1. destruct k1; [exact E2|discriminate].
  - unfold reading in E1 at 1. apply bind_ok in E1 as ((l&e)&Er&E1). apply bind_ok in E1 as ((ls&e')&Ers&E1). inv E1. unfold reading in Ers. apply bind_ok in Ers as ((ls0&e0)&Ers&E0). unfold read in E0. cbn [bind] in E0. inv E0. rewrite app_nil_r in *.
    unfold reading at 1. cbn [bind]. assert (exists i j, e = phantoms i /\ e0 = phantoms j /\ i + j = k1) as (i&j&->&->&<-).
    { clear - H1. revert e H1. induction k1 as [|k IH]; intros e E; cbn in E; [apply app_eq_nil in E as [-> ->]; exists 0, 0; auto|]. destruct e as [|x e]; cbn in E; [subst; exists 0, (S k); auto|]. inv E. apply IH in H1 as (i&j&->&->&<-). exists (S i), j. auto. }
    rewrite (IH _ _ Ers). unfold reading, read. cbn [bind app]. now rewrite app_nil_r, <- repeat_app, Nat.add_assoc.
Qed.
Lemma list_elements ds ls e : read_all (map (fun d => layout (as_xml d)) ds) = Ok (ls, e) -> on_elements layout (map as_xml ds) = map (fun d => layout (as_xml d)) ds.
Proof.
  revert ls e. induction ds as [|d ds IH]; intros ls e E; [reflexivity|]. cbn [map read_all] in E. unfold reading in E at 1. apply bind_ok in E as ((l&e1)&E1&E). apply bind_ok in E as ((ls'&e')&E2&_). unfold reading in E2. apply bind_ok in E2 as ((ls0&e0)&E2&_).
  destruct d as [tag b c|t]; [|discriminate E1]. cbn [map as_xml on_elements]. f_equal. eauto.
Qed.
Lemma list_one d rows k : list_reads [d] rows k -> exists r, rows = [r] /\ reads_as d r k.
Proof.
  intros (ls&E&El). cbn [map read_all] in E. unfold reading in E at 1. apply bind_ok in E as ((l&e)&E1&E). unfold reading, read in E. cbn [bind] in E. inv E.
  exists (wrap_in_row l). split; [reflexivity|]. exists l. rewrite app_nil_r in *. split; [|reflexivity]. congruence.
Qed.
Lemma wrap_many l : wrap_in_row (Many (flat_map as_array l)) = concat (map wrap_in_row l).
Proof. unfold wrap_in_row. cbn [as_array]. induction l as [|a l IH]; [reflexivity|]. cbn [flat_map map concat]. now rewrite flat_map_app, IH. Qed.
Lemma mrow_reads tag b ds rows k : tag = Tmrow \/ tag = Tmtd -> list_reads ds rows k -> reads_as (DomElement tag b ds) (concat rows) k.
Proof.
  intros Ht (ls&E&El). exists (One (ItemRow (wrap_in_row (Many (flat_map as_array ls))))). split.
  - cbn [as_xml]. cbn [to_math_layout]. rewrite (list_elements E). replace (tag_is (tag_name tag) ["math"; "mrow"; "mtd"]%string) with true by (destruct Ht; subst; reflexivity). rewrite E. unfold reading, read. cbn [bind]. now rewrite !app_nil_r.
  - unfold wrap_in_row at 1. cbn [as_array flat_map item_values]. now rewrite app_nil_r, wrap_many, El.
Qed.
Lemma wrap_reads ds rows k : list_reads ds rows k -> reads_as (wrap_in_mrow ds) (concat rows) k.
Proof.
  intros H. destruct ds as [|d [|d' ds]]; [now apply mrow_reads; auto| |now apply mrow_reads; auto]. apply list_one in H as (r&->&H). cbn [wrap_in_mrow concat]. now rewrite app_nil_r.
Qed.
Lemma phantom_reads : reads_as (create_math_element Tmphantom []) [oops] 1.
Proof. eexists. split; [reflexivity|]. unfold wrap_in_row, xml_symbol. cbn [as_array flat_map item_values app]. now rewrite (proj2 (proj2 HS)). Qed.
Lemma readers_read d r k : reads_as d r k -> list_reads [create_math_element Tmphantom []; d; create_math_element Tmphantom []] [[oops]; r; [oops]] (2 + k).
Proof.
  intros H. replace (2 + k) with (1 + (k + (1 + 0))) by lia. apply list_cons; [apply phantom_reads|]. apply list_cons; [exact H|]. apply list_cons; [apply phantom_reads|apply list_nil].
Qed.
(** Texts *)
Lemma plain_trim s : Forall plain s -> trim s = s.
Proof.
  intros H. unfold trim. assert (T : forall t, Forall plain t -> trim_start t = t) by (intros [|c t] Ht; [reflexivity|]; cbn; inversion Ht; subst; now rewrite (proj2 (proj1 HS c H2))).
  rewrite (T s H), T by now apply Forall_rev. apply rev_involutive.
Qed.
Lemma texts_content l : concat (map text_content (map as_xml (map DomText l))) = concat l.
Proof. rewrite !map_map. cbn [as_xml text_content]. now rewrite map_id. Qed.
Lemma text_reads tag b symbols l : In tag [Tmi; Tmn; Tmo] -> concat symbols = concat (map (fun c => [c]) l) -> Forall plain l -> reads_as (DomElement tag b (map DomText symbols)) (map (fun c => Symbol [c]) l) 0.
Proof.
  intros Ht E Hl. assert (El : concat (map (fun c : N => [c]) l) = l) by (clear; induction l as [|c l IH]; [reflexivity|]; cbn; now rewrite IH). rewrite El in E.
  exists (Many (map (fun c => ItemNode (Symbol [c])) l)). split; [|unfold wrap_in_row; cbn [as_array]; rewrite flat_map_concat_map, map_map; cbn [item_values]; clear; induction l as [|c l IH]; [reflexivity|]; cbn; now rewrite IH].
  assert (T : text_symbols normalize segment (as_xml (DomElement tag b (map DomText symbols))) = map (fun c => ItemNode (Symbol [c])) l).
  { unfold text_symbols. cbn [as_xml text_content]. rewrite texts_content, E, (plain_trim Hl), (proj1 (proj2 HS) _ Hl), map_map. apply map_ext_in. intros c Hc. unfold xml_symbol. rewrite (proj1 (proj1 HS c (proj1 (Forall_forall _ _) Hl c Hc))). reflexivity. }
  cbn [as_xml] in T |- *. cbn [to_math_layout]. destruct Ht as [<-|[<-|[<-|[]]]]; rewrite T; reflexivity.
Qed.
Lemma missing_reads : reads_as (create_math_element Tmi [DomText missing_text]) [] 0.
Proof.
  exists (Many []). split; [|reflexivity]. unfold create_math_element. cbn [map as_xml to_math_layout]. unfold text_symbols. cbn [text_content map concat]. change (trim (missing_text ++ [])) with (@nil N). now rewrite (proj1 (proj2 HS) [] (Forall_nil _)).
Qed.
(** Containers *)
Lemma rows_read (rs : list (Reading MathLayout)) ls e : read_all rs = Ok (ls, e) -> read_all (map (fun c => l <~ c ;; read (wrap_in_row l)) rs) = Ok (map wrap_in_row ls, e).
Proof.
  revert ls e. induction rs as [|r rs IH]; intros ls e E; cbn [read_all map] in *; [now inv E|]. unfold reading in E at 1. apply bind_ok in E as ((l&e1)&E1&E). apply bind_ok in E as ((ls'&e')&E2&E). inv E. unfold reading in E2. apply bind_ok in E2 as ((ls0&e0)&E2&E0). unfold read in E0. cbn [bind] in E0. inv E0.
  rewrite (IH _ _ E2). unfold reading, read. cbn [bind map]. now rewrite !app_nil_r.
Qed.
Lemma list_length ds rows k : list_reads ds rows k -> List.length rows = List.length ds.
Proof.
  intros (ls&E&<-). rewrite map_length. revert ls k E. induction ds as [|d ds IH]; intros ls k E; cbn [map read_all] in E; [now inv E|]. unfold reading in E at 1. apply bind_ok in E as ((l&e1)&E1&E). apply bind_ok in E as ((ls'&e')&E2&E). inv E. unfold reading in E2. apply bind_ok in E2 as ((ls0&e0)&E2&E0). unfold read in E0. cbn [bind] in E0. inv E0. cbn. f_equal.
  clear - E2. revert ls0 e0 E2. induction ds as [|d ds IH]; intros ls e E; cbn [map read_all] in E; [now inv E|]. unfold reading in E at 1. apply bind_ok in E as ((l&e1)&E1&E). apply bind_ok in E as ((ls'&e')&E2&E). inv E. unfold reading in E2. apply bind_ok in E2 as ((ls0&e0)&E2&E0). unfold read in E0. cbn [bind] in E0. inv E0. cbn. f_equal. eauto.
Qed.
Lemma node_row n : wrap_in_row (One (ItemNode n)) = [n]. Proof. reflexivity. Qed.
Lemma fraction_reads b ds rows k : list_reads ds rows k -> List.length ds = 2 -> reads_as (DomElement Tmfrac b ds) [Container Fraction (mkGrid rows 1)] k.
Proof.
  intros (ls&E&<-) Hl. eexists. split; [|apply node_row]. cbn [as_xml to_math_layout]. rewrite (list_elements E), map_length, Hl.
  change (tag_name Tmfrac) with (lit "mfrac"). change (expect_children normalize (lit "mfrac") 2 2) with (fun r : Reading MathLayout => r). cbv beta. cbn [tag_is existsb lit]. 
  change (tag_is (lit "mfrac") ["math"; "mrow"; "mtd"]%string) with false. change (tag_is (lit "mfrac") ["semantics"]%string) with false. change (tag_is (lit "mfrac") ["mtext"; "ms"]%string) with false.
  change (tag_is (lit "mfrac") ["mi"; "mn"]%string) with false. change (tag_is (lit "mfrac") ["mo"]%string) with false. change (tag_is (lit "mfrac") ["mfrac"]%string) with true. cbv iota. cbn [andb].
  rewrite (rows_read E). unfold reading, read. cbn [bind]. now rewrite app_nil_r.
Qed.
Lemma root_reads b d1 r1 k1 d2 r2 k2 : reads_as d1 r1 k1 -> reads_as d2 r2 k2 -> reads_as (DomElement Tmroot b [d2; d1]) [Container RootV (mkGrid [r1; r2] 2)] (k1 + k2).
Proof.
  intros (l1&E1&<-) (l2&E2&<-). eexists. split; [|apply node_row]. destruct d1 as [t1 b1 c1|]; [|discriminate E1]. destruct d2 as [t2 b2 c2|]; [|discriminate E2].
  change (as_xml (DomElement Tmroot b [DomElement t2 b2 c2; DomElement t1 b1 c1])) with (XmlElement (lit "mroot") [as_xml (DomElement t2 b2 c2); as_xml (DomElement t1 b1 c1)]).
  remember (as_xml (DomElement t2 b2 c2)) as x2 eqn:X2. remember (as_xml (DomElement t1 b1 c1)) as x1 eqn:X1. cbn [to_math_layout]. assert (O : on_elements layout [x2; x1] = [layout x2; layout x1]) by (rewrite X1, X2; reflexivity). rewrite O.
  change (tag_is (lit "mroot") ["mroot"]%string) with true.
  change (tag_is (lit "mroot") ["math"; "mrow"; "mtd"]%string) with false. change (tag_is (lit "mroot") ["semantics"]%string) with false. change (tag_is (lit "mroot") ["mtext"; "ms"]%string) with false.
  change (tag_is (lit "mroot") ["mi"; "mn"]%string) with false. change (tag_is (lit "mroot") ["mo"]%string) with false. change (tag_is (lit "mroot") ["mfrac"]%string) with false. change (tag_is (lit "mroot") ["msqrt"]%string) with false.
  cbv iota. cbn [andb List.length nth]. change (expect_children normalize (lit "mroot") 2 2) with (fun r : Reading MathLayout => r). cbv beta. rewrite E1, E2. unfold reading, read. cbn [bind]. now rewrite !app_nil_r, repeat_app.
Qed.
Lemma script_reads v b d1 r1 k1 d2 r2 k2 : v = Sub \/ v = Sup -> reads_as d1 r1 k1 -> reads_as d2 r2 k2 ->
  reads_as (DomElement (match v with Sub => Tmsub | _ => Tmsup end) b [d1; d2]) (r1 ++ [Container v (mkGrid [r2] 1)]) (k1 + k2).
Proof.
  intros Hv (l1&E1&<-) (l2&E2&<-). exists (Many (as_array l1 ++ [xml_container v [wrap_in_row l2] 1])). split; [|unfold wrap_in_row at 1; cbn [as_array]; rewrite flat_map_app; reflexivity].
  destruct d1 as [t1 b1 c1|]; [|discriminate E1]. destruct d2 as [t2 b2 c2|]; [|discriminate E2].
  remember (as_xml (DomElement t2 b2 c2)) as x2 eqn:X2. remember (as_xml (DomElement t1 b1 c1)) as x1 eqn:X1.
  assert (O : on_elements layout [x1; x2] = [layout x1; layout x2]) by (rewrite X1, X2; reflexivity).
  destruct Hv as [-> | ->].
  - change (as_xml (DomElement Tmsub b [DomElement t1 b1 c1; DomElement t2 b2 c2])) with (XmlElement (lit "msub") [as_xml (DomElement t1 b1 c1); as_xml (DomElement t2 b2 c2)]). rewrite <- X1, <- X2. cbn [to_math_layout]. rewrite O.
    change (tag_is (lit "msub") ["msub"]%string) with true. change (tag_is (lit "msub") ["mroot"]%string) with false.
    change (tag_is (lit "msub") ["math"; "mrow"; "mtd"]%string) with false. change (tag_is (lit "msub") ["semantics"]%string) with false. change (tag_is (lit "msub") ["mtext"; "ms"]%string) with false.
    change (tag_is (lit "msub") ["mi"; "mn"]%string) with false. change (tag_is (lit "msub") ["mo"]%string) with false. change (tag_is (lit "msub") ["mfrac"]%string) with false. change (tag_is (lit "msub") ["msqrt"]%string) with false.
    cbv iota. cbn [andb List.length nth]. change (expect_children normalize (lit "msub") 2 2) with (fun r : Reading MathLayout => r). cbv beta. rewrite E1, E2. unfold reading, read. cbn [bind]. now rewrite !app_nil_r, repeat_app.
  - change (as_xml (DomElement Tmsup b [DomElement t1 b1 c1; DomElement t2 b2 c2])) with (XmlElement (lit "msup") [as_xml (DomElement t1 b1 c1); as_xml (DomElement t2 b2 c2)]). rewrite <- X1, <- X2. cbn [to_math_layout]. rewrite O.
    change (tag_is (lit "msup") ["msub"]%string) with false. change (tag_is (lit "msup") ["msup"]%string) with true. change (tag_is (lit "msup") ["mroot"]%string) with false.
    change (tag_is (lit "msup") ["math"; "mrow"; "mtd"]%string) with false. change (tag_is (lit "msup") ["semantics"]%string) with false. change (tag_is (lit "msup") ["mtext"; "ms"]%string) with false.
    change (tag_is (lit "msup") ["mi"; "mn"]%string) with false. change (tag_is (lit "msup") ["mo"]%string) with false. change (tag_is (lit "msup") ["mfrac"]%string) with false. change (tag_is (lit "msup") ["msqrt"]%string) with false.
    cbv iota. cbn [andb List.length nth]. change (expect_children normalize (lit "msup") 2 2) with (fun r : Reading MathLayout => r). cbv beta. rewrite E1, E2. unfold reading, read. cbn [bind]. now rewrite !app_nil_r, repeat_app.
Qed.
(** Tables *)
Fixpoint chunks (fuel w : nat) (l : list Dom) : list (list Dom) :=
  match fuel, l with
  | 0, _ | _, [] => []
  | S fuel, _ => firstn w l :: chunks fuel w (skipn w l)
  end.
Definition cell_dom (d : Dom) : Dom := create_math_element Tmtd [d].
Lemma chunks_rows fuel w : forall l, table_rows fuel w l = map (fun c => create_math_element Tmtr (map cell_dom c)) (chunks fuel w l).
Proof. induction fuel as [|fuel IH]; intros [|d l]; try reflexivity. cbn [table_rows chunks map]. now rewrite IH. Qed.
Lemma chunks_concat w : 0 < w -> forall fuel l, List.length l <= fuel -> concat (chunks fuel w l) = l.
Proof.
  intros Hw. induction fuel as [|fuel IH]; intros l Hf; [destruct l; [reflexivity|cbn in Hf; lia]|]. destruct l as [|d l]; [reflexivity|]. cbn [chunks concat]. rewrite IH by (rewrite skipn_length; cbn [List.length] in *; lia). apply firstn_skipn.
Qed.
Lemma chunks_even w : 0 < w -> forall fuel l, List.length l mod w = 0 -> Forall (fun c => List.length c = w) (chunks fuel w l).
Proof.
  intros Hw. induction fuel as [|fuel IH]; intros l Hm; [constructor|]. destruct l as [|d l]; [constructor|]. cbn [chunks]. assert (w <= List.length (d :: l)) as L.
  { destruct (le_lt_dec w (List.length (d :: l))) as [|Q]; [assumption|]. rewrite Nat.mod_small in Hm by exact Q. discriminate Hm. }
  constructor; [now apply firstn_length_le|]. apply IH. rewrite skipn_length. assert (E : List.length (d :: l) = (List.length (d :: l) - w) + 1 * w) by lia. rewrite E, Nat.mod_add in Hm by lia. exact Hm.
Qed.
Lemma table_line_all w cells : List.length cells = w -> table_line w cells = map (fun c => l <~ c ;; read (wrap_in_row l)) cells.
Proof. revert cells. induction w as [|w IH]; intros [|c cells] H; try discriminate; [reflexivity|]. cbn [table_line map]. now rewrite IH by (cbn in H; lia). Qed.
Lemma max_const w l a : Forall (fun n => n = w) l -> a <= w -> fold_left Nat.max l a = match l with [] => a | _ => w end.
Proof. revert a. induction l as [|n l IH]; intros a Hl Ha; [reflexivity|]. inversion Hl; subst. cbn [fold_left]. rewrite IH by (auto; lia). destruct l; lia. Qed.
Lemma cells_read ds rows k : list_reads ds rows k -> list_reads (map cell_dom ds) rows k.
Proof.
  assert (K : forall ds ls e, read_all (map (fun d => layout (as_xml d)) ds) = Ok (ls, e) -> exists ls', read_all (map (fun d => layout (as_xml d)) (map cell_dom ds)) = Ok (ls', e) /\ map wrap_in_row ls' = map wrap_in_row ls).
  { clear. intros ds. induction ds as [|d ds IH]; intros ls e E; cbn [map read_all] in *; [exists ls; auto|]. unfold reading in E at 1. apply bind_ok in E as ((l&e1)&E1&E). apply bind_ok in E as ((ls'&e')&E2&E). inv E. unfold reading in E2. apply bind_ok in E2 as ((ls0&e0)&E2&E0). unfold read in E0. cbn [bind] in E0. inv E0.
    destruct (IH _ _ E2) as (ls1&E3&E4). exists (One (ItemRow (wrap_in_row l)) :: ls1). split.
    - unfold cell_dom at 1, create_math_element. assert (D : on_elements layout [as_xml d] = [layout (as_xml d)]) by (destruct d; [reflexivity|discriminate E1]). cbn [as_xml map]. cbn [to_math_layout]. rewrite D.
      change (tag_is (tag_name Tmtd) ["math"; "mrow"; "mtd"]%string) with true. cbv iota. cbn [read_all]. rewrite E1, E3. unfold reading, read. cbn [bind flat_map]. rewrite !app_nil_r. reflexivity.
    - cbn [map]. rewrite E4. f_equal. unfold wrap_in_row at 1. cbn [as_array flat_map item_values]. apply app_nil_r. }
  intros (ls&E&<-). destruct (K _ _ _ E) as (ls'&E'&El). exists ls'. auto.
Qed.
Lemma table_reads b ds rows k w : list_reads ds rows k -> 0 < w -> 0 < List.length ds -> List.length ds mod w = 0 -> reads_as (DomElement Tmtable b (table_rows (List.length ds) w ds)) [Container Table (mkGrid rows w)] k.
Proof.
  intros H Hw Hl Hm. apply cells_read in H as (ls&E&<-). eexists. split; [|apply node_row]. rewrite chunks_rows. pose proof (chunks_even Hw (List.length ds) Hm) as Ev. pose proof (chunks_concat Hw (Nat.le_refl (List.length ds))) as Ec.
  assert (Hne : chunks (List.length ds) w ds <> []) by (destruct ds; [cbn in Hl; lia|discriminate]).
  set (cs := chunks (List.length ds) w ds) in *. clearbody cs. cbn [as_xml]. change (tag_name Tmtable) with (lit "mtable"). cbn [to_math_layout].
  change (tag_is (lit "mtable") ["math"; "mrow"; "mtd"]%string) with false. change (tag_is (lit "mtable") ["semantics"]%string) with false. change (tag_is (lit "mtable") ["mtext"; "ms"]%string) with false.
  change (tag_is (lit "mtable") ["mi"; "mn"]%string) with false. change (tag_is (lit "mtable") ["mo"]%string) with false. change (tag_is (lit "mtable") ["mfrac"]%string) with false. change (tag_is (lit "mtable") ["msqrt"]%string) with false.
  change (tag_is (lit "mtable") ["mroot"]%string) with false. change (tag_is (lit "mtable") ["msub"]%string) with false. change (tag_is (lit "mtable") ["msup"]%string) with false. change (tag_is (lit "mtable") ["msubsup"]%string) with false.
  change (tag_is (lit "mtable") ["munder"]%string) with false. change (tag_is (lit "mtable") ["mover"]%string) with false. change (tag_is (lit "mtable") ["munderover"]%string) with false. change (tag_is (lit "mtable") ["mtable"]%string) with true. cbv iota. cbn [andb].
  match goal with |- (if ?c then _ else _) = _ => assert (Hc : c = true) end.
  { clear - cs. induction cs as [|c cs IH]; [reflexivity|]. cbn [map as_xml create_math_element on_elements forallb]. rewrite IH, andb_true_r. change (tag_is (tag_name Tmtr) ["mtr"]%string) with true. cbn [andb]. clear. induction c as [|d c IH]; [reflexivity|]. cbn [map as_xml cell_dom create_math_element on_elements forallb]. now rewrite IH. }
  rewrite Hc. clear Hc.
  match goal with |- context [flat_map _ (on_elements ?f ?n)] => assert (Hlines : on_elements f n = map (map (fun d => layout (as_xml (cell_dom d)))) cs) end.
  { clear. induction cs as [|c cs IH]; [reflexivity|]. cbn [map as_xml create_math_element on_elements]. rewrite IH. f_equal. clear. induction c as [|d c IH]; [reflexivity|]. cbn [map as_xml cell_dom create_math_element on_elements]. f_equal. exact IH. }
  rewrite Hlines. clear Hlines.
  assert (Hwid : fold_left Nat.max (map (@List.length _) (map (map (fun d => layout (as_xml (cell_dom d)))) cs)) 0 = w).
  { rewrite map_map. rewrite (map_ext _ (@List.length Dom)) by (intros; apply map_length). rewrite (@max_const w); [destruct cs; [congruence|reflexivity]| |lia]. apply Forall_map. exact Ev. }
  rewrite Hwid.
  assert (Hall : flat_map (table_line w) (map (map (fun d => layout (as_xml (cell_dom d)))) cs) = map (fun c => l <~ c ;; read (wrap_in_row l)) (map (fun d => layout (as_xml d)) (map cell_dom ds))).
  { rewrite <- Ec. clear - Ev. induction cs as [|c cs IH]; [reflexivity|]. inversion Ev; subst. cbn [map flat_map concat]. rewrite IH by assumption. rewrite !map_app. f_equal. rewrite table_line_all by apply map_length. now rewrite !map_map. }
  rewrite Hall, (rows_read E). unfold reading, read. cbn [bind]. now rewrite app_nil_r.
Qed.

(** ** Parts of a row *)
Definition bare_row (row : InputRow) : Prop := forall x, In x (row_parts row) -> bare plain x.
Definition noise (c : InputRow) : InputRow := flat_map noisy c.
Definition cnt (c : InputRow) : nat := 2 * list_sum (map containers c).
Definition piece (row : InputRow) (s e : nat) : InputRow := firstn (e - s) (skipn s row).
Lemma noise_app a b : noise (a ++ b) = noise a ++ noise b. Proof. apply flat_map_app. Qed.
Lemma cnt_app a b : cnt (a ++ b) = cnt a + cnt b. Proof. unfold cnt. rewrite map_app, list_sum_app. lia. Qed.
Lemma noise_concat cs : noise (concat cs) = concat (map noise cs).
Proof. induction cs as [|c cs IH]; [reflexivity|]. cbn [concat map]. now rewrite noise_app, IH. Qed.
Lemma cnt_concat cs : cnt (concat cs) = list_sum (map cnt cs).
Proof. induction cs as [|c cs IH]; [reflexivity|]. cbn [concat map]. rewrite cnt_app, IH. reflexivity. Qed.
Lemma noise_symbols l : noise (map Symbol l) = map Symbol l.
Proof. unfold noise. induction l as [|s l IH]; [reflexivity|]. cbn [map flat_map noisy app]. now rewrite IH. Qed.
Lemma cnt_symbols l : cnt (map Symbol l) = 0.
Proof. unfold cnt. replace (list_sum (map containers (map Symbol l))) with 0; [reflexivity|]. induction l as [|s l IH]; [reflexivity|exact IH]. Qed.
Lemma piece_nil row s : piece row s s = [].
Proof. unfold piece. now rewrite Nat.sub_diag. Qed.
Lemma piece_app row s m e : s <= m -> m <= e -> piece row s e = piece row s m ++ piece row m e.
Proof.
  intros H H'. unfold piece. replace (e - s) with ((m - s) + (e - m)) by lia. rewrite firstn_split. do 2 f_equal.
  rewrite skipn_skipn_add. now replace (s + (m - s)) with m by lia.
Qed.
Lemma piece_one row s n : nth_error row s = Some n -> piece row s (S s) = [n].
Proof.
  intros H. unfold piece. replace (S s - s) with 1 by lia. assert (s < List.length row) as L by (apply nth_error_Some; congruence).
  destruct (skipn_lt L) as (n'&E). rewrite E. cbn. destruct (skipn_cons_S E) as (_&_&En). congruence.
Qed.
Lemma piece_all row : piece row 0 (List.length row) = row.
Proof. unfold piece. rewrite Nat.sub_0_r. cbn [skipn]. apply firstn_all. Qed.
Lemma piece_reads row s e l : reads row s l -> List.length l = e - s -> piece row s e = map Symbol l.
Proof.
  intros [tail H] L. unfold piece. rewrite H, <- L. rewrite <- (map_length Symbol l). rewrite firstn_app, Nat.sub_diag, firstn_all. cbn [firstn]. apply app_nil_r.
Qed.
Lemma bare_symbol row k x : bare_row row -> nth_error row k = Some (Symbol x) -> exists c, x = [c] /\ plain c /\ c <> 32%N /\ c <> 34%N.
Proof. intros H E. apply nth_error_In in E. exact (H (PartSymbol x) (in_row_parts E (or_introl eq_refl))). Qed.
Lemma bare_reads row s l : bare_row row -> reads row s l -> exists cs, l = map (fun c => [c]) cs /\ Forall plain cs /\ Forall (fun c => c <> 34%N) cs.
Proof.
  intros H [tail E]. assert (K : forall x, In x l -> exists c, x = [c] /\ plain c /\ c <> 34%N).
  { intros x Hx. assert (In (Symbol x) row) as Hr by (rewrite <- (firstn_skipn s row), E; apply in_app_iff; right; apply in_app_iff; left; now apply in_map).
    destruct (H (PartSymbol x) (in_row_parts Hr (or_introl eq_refl))) as (c&->&Hc&_&H34). eauto. }
  clear - K. induction l as [|x l IH]; [exists []; auto|]. destruct (K x (or_introl eq_refl)) as (c&->&Hc&H34). destruct IH as (cs&->&H1&H2); [intros y Hy; apply K; now right|]. exists (c :: cs). auto.
Qed.
Lemma bare_spaces row s e o : bare_row row -> spaces row s e o -> o = None /\ s = e.
Proof. intros H S. inversion S as [|s' e' L B]; subst; [auto|]. exfalso. destruct (bare_symbol H (B s ltac:(lia))) as (c&E&_&N&_). inversion E. congruence. Qed.
Lemma bare_cell row s v cells w cell : bare_row row -> nth_error row s = Some (Container v (mkGrid cells w)) -> In cell cells -> bare_row cell.
Proof.
  intros H E Hc x Hx. apply nth_error_In in E. apply H. eapply in_row_parts; [exact E|]. cbn [node_parts]. right. apply in_concat. exists (row_parts cell). split; [exact (in_map row_parts cells cell Hc)|exact Hx].
Qed.

(** ** Rendering *)
Section Rendering.
Variable rs : Renderers.
Definition element_reads (x : Element) (c : InputRow) : Prop := exists rows, list_reads (get_elements x) rows (cnt c) /\ concat rows = noise c.
Definition spotless (x : Element) : Prop := forallb clean (get_elements x) = true.
Definition rereads (n : SyntaxNode) (c : InputRow) : Prop := forall ri o x, render rs n ri o = Ok x -> spotless x -> element_reads x c.
Lemma clean_wrap l : clean (wrap_in_mrow l) = forallb clean l.
Proof. destruct l as [|a [|b l]]; try reflexivity. cbn [wrap_in_mrow forallb]. now rewrite andb_true_r. Qed.
Lemma clean_children xs : forallb clean (child_doms xs) = true -> Forall spotless xs.
Proof. induction xs as [|x xs IH]; intros H; constructor; unfold child_doms in H; cbn [map forallb] in H; apply andb_prop in H as [H1 H2]; [now rewrite clean_wrap in H1|auto]. Qed.
Lemma children_read xs cs : Forall2 element_reads xs cs -> list_reads (child_doms xs) (map noise cs) (list_sum (map cnt cs)).
Proof.
  induction 1 as [|x c xs cs (rows&Hx&E) H IH]; [apply list_nil|]. unfold child_doms in *. cbn [map]. change (list_sum (cnt c :: map cnt cs)) with (cnt c + list_sum (map cnt cs)). apply list_cons; [|exact IH]. rewrite <- E. now apply wrap_reads.
Qed.
Lemma mapi_rereads (f : nat -> SyntaxNode -> Res Element) l cs : Forall2 (fun n c => forall k x, f k n = Ok x -> spotless x -> element_reads x c) l cs ->
  forall k xs, mapi_res f k l = Ok xs -> Forall spotless xs -> Forall2 element_reads xs cs.
Proof.
  induction 1 as [|n c l cs Hn Hl IH]; intros k xs H Hx; cbn [mapi_res] in H; [inv H; constructor|]. apply bind_ok in H as (x&Ex&H). apply bind_ok in H as (xs'&Exs&H). inv H. inversion Hx; subst.
  constructor; eauto.
Qed.
Lemma simple_rereads n ri tag o x l cs : simple_container rs n ri tag o = Ok x -> syn_children n = Children l -> Forall2 rereads l cs -> tag <> Tmerror -> spotless x ->
  exists xs, x = mkElement (SimpleContainer tag) n ri xs /\ Forall2 element_reads xs cs.
Proof.
  intros H En Hl Ht Hx. unfold simple_container in H. rewrite En in H. apply bind_ok in H as (xs&Ex&H). apply bind_ok in H as (?&_&H). apply bind_ok in H as (?&_&H). inv H.
  exists xs. split; [reflexivity|]. cbn [render_children] in Ex. eapply mapi_rereads; [|exact Ex|].
  - eapply Forall2_imp; [|exact Hl]. cbn. intros a r Ha k x. apply Ha.
  - unfold spotless in Hx. cbn [get_elements forallb create_math_element] in Hx. fold (child_doms xs) in Hx. apply andb_prop in Hx as [Hx _]. apply clean_children. destruct tag; try exact Hx. congruence.
Qed.
Lemma mrow_rereads n ri o x l cs : simple_container rs n ri Tmrow o = Ok x -> syn_children n = Children l -> Forall2 rereads l cs -> spotless x -> element_reads x (concat cs).
Proof.
  intros H En Hl Hx. destruct (simple_rereads H En Hl ltac:(discriminate) Hx) as (xs&->&E). exists [concat (map noise cs)]. split; [|cbn [concat]; now rewrite app_nil_r, noise_concat].
  cbn [get_elements]. fold (child_doms xs). rewrite cnt_concat. rewrite <- (Nat.add_0_r (list_sum _)). apply list_cons; [|apply list_nil]. apply mrow_reads; [now left|]. now apply children_read.
Qed.
Lemma rows_rereads n class tag ri x l w cs : rows_container rs n class tag ri = Ok x -> syn_children n = NewRows (mkGrid l w) -> Forall2 rereads l cs ->
  exists xs, x = mkElement class n ri xs /\ (Forall spotless xs -> Forall2 element_reads xs cs) /\ List.length xs = List.length l /\ right_number tag (List.length xs) = true.
Proof.
  intros H En Hl. unfold rows_container in H. rewrite En in H. apply bind_ok in H as (?&_&H). apply bind_ok in H as (xs&Ex&H). apply bind_ok in H as (?&_&H). apply bind_ok in H as (?&Hn&H). inv H.
  apply assert_inv in Hn. exists xs. split; [reflexivity|]. cbn [render_rows] in Ex. split; [|split; [now apply mapi_inv in Ex as [_ ->]|exact Hn]].
  intros Hx. eapply mapi_rereads; [|exact Ex|exact Hx]. eapply Forall2_imp; [|exact Hl]. cbn. intros a r Ha k x. apply Ha.
Qed.
Lemma rereads_simple name l s e b cs c : get_renderer rs name = Some (RenderSimple b) -> Forall2 rereads l cs -> c = concat cs -> rereads (mkSyntax name (Children l) s e) c.
Proof. intros Hn Hl -> ri o x H. rewrite render_eq in H. unfold render_node in H. cbn [syn_name syn_range] in H. rewrite Hn in H. eapply mrow_rereads; [exact H|reflexivity|exact Hl]. Qed.
Lemma leaf_rereads d c : (forall rows, rows = [map Symbol c] -> list_reads [d] rows 0) -> exists rows, list_reads [d] rows (cnt (map Symbol c)) /\ concat rows = noise (map Symbol c).
Proof. intros H. exists [map Symbol c]. rewrite cnt_symbols, noise_symbols. split; [auto|apply app_nil_r]. Qed.
Lemma rereads_text name ty symbols s e tag cs : get_renderer rs name = Some (RenderText tag) -> In tag [Tmi; Tmn; Tmo] -> concat symbols = concat (map (fun c => [c]) cs) -> Forall plain cs ->
  rereads (mkSyntax name (Leaf ty symbols) s e) (map Symbol (map (fun c => [c]) cs)).
Proof.
  intros Hn Ht Es Hc ri o x H _. rewrite render_eq in H. unfold render_node in H. cbn [syn_name syn_range syn_children] in H. rewrite Hn in H. inv H.
  unfold element_reads. cbn [get_elements leaf_symbols syn_children]. apply leaf_rereads. intros rows ->. apply (@list_cons _ _ 0 _ _ 0); [|apply list_nil]. rewrite map_map. now apply text_reads.
Qed.

Variable g : Grammar.
Hypothesis F : fits rs g.
Hypothesis Atoms : forall name t tag, In (RAtom name t) (g_rules g) -> get_renderer rs name = Some (RenderText tag) -> In tag [Tmi; Tmn; Tmo] \/ t = TString.
Hypothesis Scripts : forall name p v tag, In (RPostfix name p (TContainer v)) (g_rules g) -> get_renderer rs name = Some (RenderScript tag) -> (v = Sub /\ tag = Tmsub) \/ (v = Sup /\ tag = Tmsup).

Lemma rereads_missing p : rereads (missing_at p) [].
Proof.
  intros ri o x H _. rewrite render_eq in H. unfold render_node, missing_at in H. cbn [syn_name syn_range syn_children] in H. rewrite (fit_missing F) in H. apply bind_ok in H as (?&_&H). inv H.
  exists [[]]. split; [|reflexivity]. apply (@list_cons _ _ 0 _ _ 0); [apply missing_reads|apply list_nil].
Qed.
Lemma rereads_op ty symbols s e cs : concat symbols = concat (map (fun c => [c]) cs) -> Forall plain cs -> rereads (mkSyntax operator_rule_name (Leaf ty symbols) s e) (map Symbol (map (fun c => [c]) cs)).
Proof.
  intros Es Hc ri o x H _. rewrite render_eq in H. unfold render_node in H. cbn [syn_name syn_range syn_children] in H. rewrite (fit_operator F) in H. inv H.
  unfold element_reads. cbn [get_elements leaf_symbols syn_children]. apply leaf_rereads. intros rows ->. apply (@list_cons _ _ 0 _ _ 0); [|apply list_nil]. rewrite map_map. apply text_reads; cbn; auto.
Qed.
Lemma rereads_op_children l s e cs : Forall2 rereads l cs -> rereads (mkSyntax operator_rule_name (Children l) s e) (concat cs).
Proof. intros Hl ri o x H. rewrite render_eq in H. unfold render_node in H. cbn [syn_name syn_range syn_children] in H. rewrite (fit_operator F) in H. eapply mrow_rereads; [exact H|reflexivity|exact Hl]. Qed.
(** The contents of a token *)
Definition content_rereads (row : InputRow) (s e : nat) (t : TokenParser) (c : SyntaxNodeChildren) : Prop :=
  match c with
  | Leaf _ symbols => t <> TString /\ exists l cs, leaf_of g t symbols l /\ concat symbols = concat (map (fun c => [c]) cs) /\ Forall plain cs /\ piece row s e = map Symbol (map (fun c => [c]) cs)
  | Children l => is_bracket_token t /\ exists cs, Forall2 rereads l cs /\ piece row s e = concat cs
  | NewRows (mkGrid l w) => exists v cells, t = TContainer v /\ nth_error row s = Some (Container v (mkGrid cells w)) /\ e = S s /\ 0 < w /\ List.length l mod w = 0 /\ Forall2 rereads l cells
  end.
Definition open_rereads (row : InputRow) (s e : nat) (name : PathIdentifier) (t : TokenParser) (n : SyntaxNode) : Prop :=
  exists c, n = mkSyntax name c s e /\ content_rereads row s e t c.
Lemma open_op_rereads row s e t n : not_container t -> open_rereads row s e operator_rule_name t n -> rereads n (piece row s e).
Proof.
  intros Ht (c&->&C). destruct c as [[l w]|l|ty l]; cbn [content_rereads] in C.
  - destruct C as (v&cells&->&_). easy.
  - destruct C as (_&cs&Hl&->). now apply rereads_op_children.
  - destruct C as (_&l'&cs&_&Es&Hc&->). now apply rereads_op.
Qed.
Lemma spotless_readers d : forallb clean [create_math_element Tmphantom []; d; create_math_element Tmphantom []] = true -> clean d = true.
Proof. cbn [forallb]. intros H. apply andb_prop in H as [_ H]. now apply andb_prop in H as [H _]. Qed.
Lemma cnt_container v cells w : cnt [Container v (mkGrid cells w)] = 2 + list_sum (map cnt cells).
Proof.
  unfold cnt. cbn [map containers]. change (list_sum [?a]) with (a + 0). rewrite Nat.add_0_r. clear. assert (K : list_sum (map (fun c => 2 * list_sum (map containers c)) cells) = 2 * list_sum (map (fun cell => list_sum (map containers cell)) cells)).
  { induction cells as [|c cells IH]; [reflexivity|]. cbn [map]. change (list_sum (?a :: ?l)) with (a + list_sum l). rewrite IH. lia. }
  rewrite K. lia.
Qed.
Lemma readers_element d c v cells w : reads_as d [c] (list_sum (map cnt cells)) -> noisy (Container v (mkGrid cells w)) = [oops; c; oops] ->
  exists rows, list_reads [create_math_element Tmphantom []; d; create_math_element Tmphantom []] rows (cnt [Container v (mkGrid cells w)]) /\ concat rows = noise [Container v (mkGrid cells w)].
Proof.
  intros H E. exists [[oops]; [c]; [oops]]. split; [|unfold noise; cbn [flat_map]; now rewrite E].
  replace (cnt [Container v (mkGrid cells w)]) with (2 + list_sum (map cnt cells)); [now apply readers_read|].
  symmetry. apply cnt_container.
Qed.
Lemma element_wrap x c : element_reads x c -> reads_as (wrap_in_mrow (get_elements x)) (noise c) (cnt c).
Proof. intros (rows&H&<-). now apply wrap_reads. Qed.
Lemma clean_rows tag b xs : tag <> Tmerror -> clean (DomElement tag b (child_doms xs)) = true -> Forall spotless xs.
Proof. intros Ht H. apply clean_children. destruct tag; try exact H. congruence. Qed.
Lemma clean_table w : 0 < w -> forall fuel l, List.length l <= fuel -> forallb clean (table_rows fuel w l) = true -> forallb clean l = true.
Proof.
  intros Hw. induction fuel as [|fuel IH]; intros l Hf H; [destruct l; [reflexivity|cbn in Hf; lia]|]. destruct l as [|d l]; [reflexivity|]. cbn [table_rows forallb] in H. apply andb_prop in H as [H1 H2].
  rewrite <- (firstn_skipn w (d :: l)), forallb_app. apply andb_true_intro. split; [|apply IH; [rewrite skipn_length; cbn [List.length] in *; lia|exact H2]].
  cbn [create_math_element clean] in H1. clear - H1. induction (firstn w (d :: l)) as [|a r IHr]; [reflexivity|]. cbn [map forallb create_math_element clean] in *. apply andb_prop in H1 as [H1 H2]. rewrite andb_true_r in H1. now rewrite H1, IHr.
Qed.
Lemma open_atom_rereads row s e name t n : In (RAtom name t) (g_rules g) -> open_rereads row s e name t n -> rereads n (piece row s e).
Proof.
  intros Hr (c&->&C). pose proof (fit_rules F Hr) as Hf. destruct c as [[l w]|l|ty l]; cbn [content_rereads] in C.
  - destruct C as (v&cells&->&En&->&Hw&Hm&Hl). rewrite (piece_one En). intros ri o x H Hx. rewrite render_eq in H. unfold render_node in H. cbn [syn_name syn_range syn_children] in H.
    destruct v, (get_renderer rs name) as [[| | | |[]| | | | |]|]; try easy.
    + destruct (rows_rereads H eq_refl Hl) as (xs&->&E&_&N). unfold element_reads, spotless in *. cbn [get_elements] in *. fold (child_doms xs) in *. apply spotless_readers in Hx.
      apply clean_rows in Hx; [|discriminate]. apply E, children_read in Hx. eapply readers_element; [|reflexivity]. apply fraction_reads; [exact Hx|]. unfold child_doms. rewrite map_length. apply Nat.eqb_eq in N. now rewrite <- N.
    + destruct (rows_rereads H eq_refl Hl) as (xs&->&E&_&N). unfold element_reads, spotless in *. cbn [get_elements] in *. fold (child_doms xs) in *. apply spotless_readers in Hx.
      apply Nat.eqb_eq in N. destruct xs as [|x1 [|x2 [|]]]; try discriminate. cbn [map child_doms rev app create_math_element clean forallb] in Hx. apply andb_prop in Hx as [Hx2 Hx]. apply andb_prop in Hx as [Hx1 _]. rewrite clean_wrap in Hx1, Hx2.
      assert (Hs : Forall spotless [x1; x2]) by auto. apply E in Hs. inversion Hs as [|? c1 ? ? R1 Hs']; subst. inversion Hs' as [|? c2 ? ? R2 Hs'']; subst. inversion Hs''; subst. apply element_wrap in R1. apply element_wrap in R2.
      eapply readers_element; [|reflexivity]. change (list_sum (map cnt [c1; c2])) with (cnt c1 + (cnt c2 + 0)). rewrite Nat.add_0_r. exact (root_reads false R1 R2).
    + apply bind_ok in H as (?&Hl0&H). apply bind_ok in H as (?&_&H). apply assert_inv, Nat.ltb_lt in Hl0.
      destruct (rows_rereads H eq_refl Hl) as (xs&->&E&Hlen&_). unfold element_reads, spotless in *. cbn [get_elements] in *. fold (child_doms xs) in *. apply spotless_readers in Hx. cbn [syn_children gwidth] in *.
      assert (Hd : List.length (child_doms xs) = List.length l) by (unfold child_doms; now rewrite map_length).
      cbn [create_math_element clean] in Hx. apply clean_table in Hx; [|exact Hw|auto]. apply clean_children, E, children_read in Hx. eapply readers_element; [|reflexivity]. apply table_reads; auto; rewrite Hd; auto.
  - destruct C as (Ht&cs&Hl&E). eapply rereads_simple; [|exact Hl|exact E]. destruct t; try easy; exact Hf.
  - destruct C as (Hs&l'&cs&Hl&Es&Hc&->). assert (exists tag, get_renderer rs name = Some (RenderText tag)) as (tag&Et) by (destruct t; easy). destruct (Atoms Hr Et) as [Ht| ->]; [|easy]. eapply rereads_text; eauto.
Qed.
Lemma open_script_rereads row s m e name v tag n lhs : (v = Sub /\ tag = Tmsub) \/ (v = Sup /\ tag = Tmsup) -> get_renderer rs name = Some (RenderScript tag) -> s <= m -> rereads lhs (piece row s m) ->
  open_rereads row m e operator_rule_name (TContainer v) n -> rereads (mkSyntax name (Children [lhs; n]) s e) (piece row s e).
Proof.
  intros Hv Hn Hsm Hl (c&->&C) ri o x H Hx. rewrite render_eq in H. unfold render_node in H. cbn [syn_name syn_range syn_children nth_error] in H. rewrite Hn in H.
  apply bind_ok in H as (?&Hnew&H). apply assert_inv in Hnew.
  destruct c as [[l w]|l|ty l]; try discriminate. cbn [content_rereads] in C. destruct C as (v'&cells&Ev&En&->&Hw&Hm&Hr). inv Ev.
  unfold simple_container in H. cbn [syn_children render_children mapi_res] in H. apply bind_ok in H as (xs&Ex&H). apply bind_ok in H as (?&_&H). apply bind_ok in H as (?&_&H). inv H.
  apply bind_ok in Ex as (xb&Exb&Ex). apply bind_ok in Ex as (xs'&Ex'&Ex). inv Ex. apply bind_ok in Ex' as (xo&Exo&Ex'). inv Ex'.
  unfold spotless in Hx. cbn [get_elements map forallb create_math_element] in Hx. apply andb_prop in Hx as [Hx _].
  assert (Hx' : spotless xb /\ spotless xo).
  { destruct Hv as [[-> ->]|[-> ->]]; unfold create_math_element in Hx; cbn [clean forallb] in Hx; rewrite !clean_wrap, andb_true_r in Hx; now apply andb_prop in Hx. }
  destruct Hx' as [Hb Ho]. pose proof (element_wrap (Hl _ _ _ Exb Hb)) as Eb. clear Exb. rename Eb into Exb.
  rewrite render_eq in Exo. unfold render_node in Exo. cbn [syn_name syn_range syn_children opt_override] in Exo. rewrite (fit_operator F) in Exo.
  destruct (rows_rereads Exo eq_refl Hr) as (ys&->&E&_&_). unfold spotless in Ho. cbn [get_elements] in Ho. fold (child_doms ys) in Ho. apply spotless_readers, clean_rows in Ho; [|discriminate].
  apply E, children_read in Ho. rewrite (piece_app row (m := m)) by lia. rewrite (piece_one En).
  assert (Hi : reads_as (wrap_in_mrow [create_math_element Tmphantom []; create_math_element Tmrow (child_doms ys); create_math_element Tmphantom []]) (oops :: concat (map noise cells) ++ [oops]) (2 + list_sum (map cnt cells))).
  { change (oops :: concat (map noise cells) ++ [oops]) with (concat [[oops]; concat (map noise cells); [oops]]). apply wrap_reads, readers_read, mrow_reads; [now left|exact Ho]. }
  pose proof (script_reads false (v := v') ltac:(destruct Hv as [[-> _]|[-> _]]; auto) Exb Hi) as R.
  exists [noise (piece row s m) ++ [Container v' (mkGrid [oops :: concat (map noise cells) ++ [oops]] 1)]]. split.
  - cbn [get_elements map]. fold (child_doms ys). unfold create_math_element at 1. assert (Et : tag = match v' with Sub => Tmsub | _ => Tmsup end) by (destruct Hv as [[-> ->]|[-> ->]]; reflexivity). rewrite Et.
    replace (cnt (piece row s m ++ [Container v' (mkGrid cells w)])) with ((cnt (piece row s m) + (2 + list_sum (map cnt cells))) + 0); [apply list_cons; [exact R|apply list_nil]|]. rewrite cnt_app, Nat.add_0_r. f_equal. symmetry. apply cnt_container.
  - cbn [concat]. rewrite app_nil_r, noise_app. f_equal. destruct Hv as [[-> _]|[-> _]]; reflexivity.
Qed.
Theorem tree_rereads :
  (forall row s e n, tree g row s e n -> bare_row row -> rereads n (piece row s e)) /\
  (forall row s e t c, token g row s e t c -> bare_row row -> content_rereads row s e t c) /\
  (forall row s e name t n, wrapped g row s e name t n -> bare_row row -> open_rereads row s e name t n) /\
  (forall row s e t n, scripted g row s e t n -> not_container t -> bare_row row -> rereads n (piece row s e)) /\
  (forall cells nodes, cells_tree g cells nodes -> (forall cell, In cell cells -> bare_row cell) -> Forall2 rereads nodes cells).
Proof.
  assert (OL : forall row k x, bare_row row -> nth_error row k = Some (Symbol x) -> rereads (op_leaf x k) (piece row k (S k))).
  { intros row k x B E. rewrite (piece_one E). destruct (bare_symbol B E) as (c&->&Hc&_). apply (@rereads_op LOperator [[c]] k (S k) [c]); [reflexivity|auto]. }
  apply tree_mutind.
  - intros row s _. rewrite piece_nil. apply rereads_missing.
  - intros row s m e a b Ta IHa Tb IHb B. apply rereads_simple with (b := false) (cs := [piece row s m; []; piece row m e]); [apply (fit_juxt F)|repeat constructor; auto; apply rereads_missing|].
    cbn [concat]. rewrite app_nil_r. apply piece_app; eauto using tree_le.
  - intros row s x E _ _ ri o x' H Hx. exfalso. rewrite render_eq in H. unfold render_node in H. cbn [syn_name syn_range syn_children] in H. rewrite (fit_unknown F) in H. inv H. discriminate Hx.
  - intros row s m e op v a Hop Tv IHv Ta IHa B. apply op_rule in Hop as (r&Hr&E). destruct r; inv E. apply (fit_rules F) in Hr as [Hc Hn]. cbn [op_token op_name] in *.
    apply scripted_range in Tv as [_ Lv]. apply tree_le in Ta as La. apply rereads_simple with (b := false) (cs := [piece row s m; piece row m e]); [exact Hn|repeat constructor; auto|]. cbn [concat]. rewrite app_nil_r. apply piece_app; lia.
  - intros row s m k e op a v b Hop Ta IHa Tv IHv Tb IHb B. apply scripted_range in Tv as [_ Lv]. apply tree_le in Ta as La. apply tree_le in Tb as Lb.
    apply op_rule in Hop as (r&Hr&E). destruct r; inv E; apply (fit_rules F) in Hr as [Hc Hn]; cbn [op_token op_name] in *;
      (apply rereads_simple with (b := false) (cs := [piece row s m; piece row m k; piece row k e]); [exact Hn|repeat constructor; auto|]; cbn [concat]; rewrite app_nil_r, <- !piece_app by lia; reflexivity).
  - intros row s m e op a v Hop Ta IHa Tv IHv B. apply wrapped_range in Tv as [_ Lv]. apply tree_le in Ta as La. apply op_rule in Hop as (r&Hr&E). destruct r; inv E. pose proof (fit_rules F Hr) as Hf. cbn [op_token op_name] in *.
    assert (K : not_container t -> get_renderer rs name = Some (RenderSimple false) -> rereads (mkSyntax name (Children [a; v]) s e) (piece row s e)).
    { intros Hc Hn. apply rereads_simple with (b := false) (cs := [piece row s m; piece row m e]); [exact Hn|repeat constructor; auto; apply open_op_rereads with (t := t); auto|]. cbn [concat]. rewrite app_nil_r. apply piece_app; lia. }
    destruct t; try (now apply K). destruct Hf as [_ [Hf|Hf]]; (eapply open_script_rereads; [eapply Scripts; eauto|exact Hf| |exact (IHa B)|exact (IHv B)]; lia).
  - intros row s e name t n Hr _ IH B. apply atoms_in in Hr. eapply open_atom_rereads; eauto.
  - intros row s e t ty symbols l Hl Hse _ _ Hr Hlen Hc B. cbn [content_rereads]. destruct (bare_reads B Hr) as (cs&El&Hp&H34). split.
    + intros ->. cbn [leaf_of] in Hl. destruct Hl as [_ Hl]. rewrite El in Hl. assert (cs <> []) as Hne by (intros ->; subst l; cbn in Hlen; lia).
      destruct (exists_last Hne) as (cs'&c&->). rewrite map_app in Hl; cbn [map] in Hl; rewrite last_last in Hl. inversion Hl as [Hcc]. subst c. apply Forall_app in H34 as [_ H34]. inversion H34. congruence.
    + exists l, cs. subst l. repeat split; auto. now apply piece_reads.
  - intros row s v cells w nodes En Hw Hm _ IH B. cbn [content_rereads]. exists v, cells. repeat split; auto. apply IH. intros cell Hcell. eapply bare_cell; eauto.
  - intros row s m a b c Ea Tc IH Eb B. split; [exact I|]. apply tree_le in Tc as Lc. exists [piece row s (S s); piece row (S s) m; piece row m (S m)]. split; [repeat constructor; auto|]. cbn [concat]. rewrite app_nil_r, <- !piece_app by lia. reflexivity.
  - intros row s a b Ea Eb B. split; [exact I|]. exists [piece row s (S s); piece row (S s) (S (S s))]. split; [repeat constructor; auto|]. cbn [concat]. rewrite app_nil_r. apply piece_app; lia.
  - intros row s a b e name t c before after Sb Tt IH Sa _ B. destruct (bare_spaces B Sb) as [-> ->]. destruct (bare_spaces B Sa) as [-> <-]. exists c. split; [reflexivity|auto].
  - intros row s e t n _ IH Ht B. eapply open_op_rereads; eauto.
  - intros row s m e t n v name op Hv Tn IHn _ IHo Ht B. apply scripted_range in Tn as [_ Ln]. destruct Hv as [[-> ->]|[-> ->]].
    + eapply open_script_rereads; [left; auto|apply (fit_sub F)| |apply IHn; auto|exact (IHo B)]. lia.
    + eapply open_script_rereads; [right; auto|apply (fit_sup F)| |apply IHn; auto|exact (IHo B)]. lia.
  - constructor.
  - intros cell cells n nodes _ IHn _ IHc B. constructor; [|apply IHc; intros; apply B; now right]. specialize (IHn (B _ (or_introl eq_refl))). now rewrite piece_all in IHn.
Qed.
End Rendering.

(** ** The default grammar *)
Section Default.
Variable xs xc : N -> bool.
Definition reread_b (r : ParseRule) : bool :=
  match r with
  | RAtom name t =>
      match get_renderer default_renderers name with
      | Some (RenderText (Tmi | Tmn | Tmo)) => true
      | Some (RenderText _) => match t with TString => true | _ => false end
      | _ => true
      end
  | _ => true
  end.
Lemma default_rereads : forallb reread_b (g_rules (default_grammar xs xc)) = true.
Proof. vm_compute. reflexivity. Qed.
Lemma default_reread name t tag : In (RAtom name t) (g_rules (default_grammar xs xc)) -> get_renderer default_renderers name = Some (RenderText tag) -> In tag [Tmi; Tmn; Tmo] \/ t = TString.
Proof.
  intros Hr Hn. pose proof default_rereads as A. rewrite forallb_forall in A. apply A in Hr. clear A. unfold reread_b in Hr. rewrite Hn in Hr. clear Hn. cbn [In]. destruct tag; auto; destruct t; try discriminate Hr; auto.
Qed.
Theorem drawn_reread doc n x : parse (default_grammar xs xc) doc = Ok n -> render_all default_renderers n = Ok x -> bare_row doc -> spotless x ->
  from_element normalize segment (as_math (get_elements x)) = Ok (flat_map noisy doc, complaints doc).
Proof.
  intros En Hx B Hc. apply parse_shape in En; [|apply default_no_empty_tokens]. destruct (tree_rereads (default_fits xs xc) default_reread (@default_script xs xc)) as (T&_). specialize (T _ _ _ _ En B). rewrite piece_all in T.
  destruct (T _ _ _ Hx Hc) as (rows&(ls&E&<-)&Er). unfold from_element, as_math. cbn [to_math_layout]. rewrite (list_elements E).
  change (tag_is (lit "math") ["math"; "mrow"; "mtd"]%string) with true. change (tag_is (lit "math") ["math"%string]) with true. cbv iota. rewrite E. unfold reading, read. cbn [assert_ bind]. cbv beta iota. rewrite wrap_many, Er, !app_nil_r. reflexivity.
Qed.
End Default.
End Reread.
