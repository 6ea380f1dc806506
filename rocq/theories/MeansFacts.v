(** Reading MathML gives the document that it means. *)
From Coq Require Import String.
From Verif Require Import Base Str Grid Node Spec SpecEditor SpecSafety SpecRender SpecImport SpecMathML BaseFacts TreeFacts OpFacts SafetyFacts Render FromMathML NameMapFacts ImportFacts.
Open Scope list_scope.
Open Scope nat_scope.
Set Implicit Arguments.
Unset Strict Implicit.

(** ** Texts *)
Lemma js_space_white c : js_space c = is_white c.
Proof.
  apply Bool.eq_iff_eq_true. unfold js_space, is_white. rewrite orb_true_iff, !existsb_exists. split.
  - intros [(x&Hx&E)|E].
    + exists x. split; [cbn in *; intuition|exact E].
    + exists c. split; [|apply N.eqb_refl]. apply andb_true_iff in E as [E1 E2]. apply N.leb_le in E1, E2.
      assert (D : (c = 8192 \/ c = 8193 \/ c = 8194 \/ c = 8195 \/ c = 8196 \/ c = 8197 \/ c = 8198 \/ c = 8199 \/ c = 8200 \/ c = 8201 \/ c = 8202)%N) by lia. cbn. intuition.
  - intros (x&Hx&E). apply N.eqb_eq in E. subst x. cbn in Hx. repeat (destruct Hx as [<-|Hx]; [first [now right|left; eexists; split; [|apply N.eqb_refl]; cbn; tauto]|]). destruct Hx.
Qed.
Lemma trim_start_blank a s : blank_text a -> trim_start (a ++ s) = trim_start s.
Proof. induction a as [|c a IH]; intros H; [reflexivity|]. cbn [app trim_start]. rewrite js_space_white, (H c (or_introl eq_refl)). apply IH. intros d Hd. apply H. now right. Qed.
Lemma trim_start_tight s : (forall c l, s = c :: l -> is_white c = false) -> trim_start s = s.
Proof. destruct s as [|c s]; intros H; [reflexivity|]. cbn [trim_start]. now rewrite js_space_white, (H c s eq_refl). Qed.
Lemma trim_spec before text after : blank_text before -> blank_text after -> tight_text text -> trim (before ++ text ++ after) = text.
Proof.
  intros Hb Ha [H1 H2]. unfold trim. rewrite trim_start_blank by exact Hb.
  assert (Hr : blank_text (rev after)) by (intros c Hc; apply Ha; now apply in_rev).
  destruct text as [|c text].
  - cbn [app]. replace (trim_start after) with (@nil N); [reflexivity|]. clear - Ha. induction after as [|c l IH]; [reflexivity|]. cbn [trim_start]. rewrite js_space_white, (Ha c (or_introl eq_refl)). apply IH. intros d Hd. apply Ha. now right.
  - rewrite (trim_start_tight (s := (c :: text) ++ after)) by (intros c' l E; inv E; eapply H1; reflexivity). rewrite rev_app_distr, trim_start_blank by exact Hr.
    rewrite trim_start_tight; [apply rev_involutive|]. intros c' l E. apply (H2 c' (rev l)). rewrite <- (rev_involutive (c :: text)), E. reflexivity.
Qed.

Lemma len2 A B (R : A -> B -> Prop) l l' : Forall2 R l l' -> List.length l = List.length l'.
Proof. induction 1; cbn; congruence. Qed.

Section Means.
Variable normalize : str -> str.
Variable segment : str -> list str.
Notation layout := (to_math_layout normalize segment).
Definition reads (x : Xml) (row : InputRow) : Prop := exists l, layout x = Ok (l, []) /\ wrap_in_row l = row.
Definition each (nodes : list Xml) (rows : list InputRow) : Prop := Forall2 reads (elements nodes) rows.
Definition each_line (nodes : list Xml) (lines : list (list InputRow)) : Prop :=
  Forall2 (fun x line => exists content, x = XmlElement (lit "mtr") content /\ each content line /\ forall c, In c content -> is_element c = true -> exists l, c = XmlElement (lit "mtd") l) (elements nodes) lines.
Lemma reading_read A B (a : A) (f : A -> Reading B) : reading (read a) f = f a.
Proof. unfold reading, read. cbn [bind]. destruct (f a) as [[b e]|]; reflexivity. Qed.
Lemma reading_clean A B (r : Reading A) a (f : A -> Reading B) : r = Ok (a, []) -> reading r f = f a.
Proof. intros ->. exact (reading_read a f). Qed.
Lemma each_all nodes rows : each nodes rows -> exists ls, read_all (on_elements layout nodes) = Ok (ls, []) /\ map wrap_in_row ls = rows.
Proof.
  unfold each. rewrite on_elements_map. generalize (elements nodes). intros l H. induction H as [|x row l rows (lx&E&Hx) H (ls&El&Hl)].
  - exists []. auto.
  - exists (lx :: ls). cbn [map read_all]. rewrite (reading_clean _ E), (reading_clean _ El). cbn [map]. rewrite Hx, Hl. auto.
Qed.
Lemma each_rows nodes rows : each nodes rows -> read_all (map (fun c => l <~ c ;; read (wrap_in_row l)) (on_elements layout nodes)) = Ok (rows, []).
Proof.
  unfold each. rewrite on_elements_map. generalize (elements nodes). intros l H. induction H as [|x row l rows (lx&E&Hx) H IH]; [reflexivity|].
  cbn [map read_all]. rewrite (reading_clean (a := row)); [|rewrite (reading_clean _ E); now rewrite Hx]. now rewrite (reading_clean _ IH).
Qed.
Lemma each_nth nodes rows k row : each nodes rows -> nth_error rows k = Some row -> exists l, nth k (on_elements layout nodes) throw = Ok (l, []) /\ wrap_in_row l = row.
Proof.
  unfold each. rewrite on_elements_map. generalize (elements nodes). intros l H. revert k. induction H as [|x r l rows Hx H IH]; intros [|k] E; try discriminate; cbn in *; [inv E; exact Hx|auto].
Qed.
Lemma each_row_at nodes rows k row : each nodes rows -> nth_error rows k = Some row -> row_at normalize segment nodes k = Ok (row, []).
Proof. intros H E. destruct (each_nth H E) as (l&El&Hl). unfold row_at. rewrite (reading_clean _ El). now rewrite Hl. Qed.
Lemma each_count nodes rows : each nodes rows -> List.length (on_elements layout nodes) = List.length rows.
Proof. intros H. rewrite on_elements_map, map_length. exact (len2 H). Qed.
Lemma each_expect tag nodes rows n r : each nodes rows -> List.length rows = n -> expect normalize segment tag nodes n r = r.
Proof. intros H E. unfold expect, expect_children. rewrite (each_count H), E, Nat.eqb_refl. reflexivity. Qed.
Lemma wrap_app l i : wrap_in_row (Many (as_array l ++ i)) = wrap_in_row l ++ flat_map item_values i.
Proof. unfold wrap_in_row. cbn [as_array]. apply flat_map_app. Qed.
Lemma table_line_each width nodes rows : each nodes rows -> List.length rows <= width ->
  forall r cells rest, read_all r = Ok (rest, []) -> cells = rows ++ repeat [] (width - List.length rows) ++ rest -> read_all (table_line width (on_elements layout nodes) ++ r) = Ok (cells, []).
Proof.
  unfold each. rewrite on_elements_map. generalize (elements nodes). intros l H. revert width. induction H as [|x row l rows (lx&E&Hx) H IH]; intros width Hw r cells rest Hr Hc.
  - cbn [map]. subst cells. cbn [List.length]. rewrite Nat.sub_0_r. cbn [app]. clear Hw. induction width as [|width IHw]; [exact Hr|]. cbn [table_line app read_all repeat]. rewrite reading_read, (reading_clean _ IHw). reflexivity.
  - destruct width as [|width]; [cbn in Hw; lia|]. cbn [map table_line app read_all]. rewrite (reading_clean (a := row)); [|rewrite (reading_clean _ E); now rewrite Hx].
    cbn [List.length] in Hw, Hc. erewrite (reading_clean (r := read_all _)); [|eapply IH; [lia|exact Hr|reflexivity]]. subst cells. reflexivity.
Qed.
Lemma fold_max_acc l : forall a, fold_left Nat.max l a = Nat.max a (list_max l).
Proof. induction l as [|b l IH]; intros a; cbn [fold_left list_max fold_right]; [lia|]. rewrite IH. unfold list_max. lia. Qed.
Lemma lines_width nodes lines : each_line nodes lines -> table_width normalize segment nodes = list_max (map (@List.length _) lines).
Proof.
  intros H. unfold table_width. rewrite fold_max_acc. cbn [Nat.max]. f_equal. unfold table_lines. rewrite on_elements_map. unfold each_line in H.
  induction H as [|x line l lines (content&->&H&_) _ IH]; [reflexivity|]. cbn [map]. rewrite IH. f_equal. now apply each_count.
Qed.
Lemma max_width (lines : list (list InputRow)) w : (forall line, In line lines -> List.length line <= w) -> (exists line, In line lines /\ List.length line = w) -> list_max (map (@List.length _) lines) = w.
Proof.
  intros H (line&Hin&E). apply Nat.le_antisymm.
  - apply list_max_le, Forall_forall. intros n Hn. apply in_map_iff in Hn as (l&<-&Hl). auto.
  - subst w. apply in_map with (f := @List.length InputRow) in Hin. clear - Hin. induction (map _ lines) as [|a l IH]; [easy|]. cbn. destruct Hin as [<-|Hin]; [lia|]. apply IH in Hin. unfold list_max in Hin. lia.
Qed.
Lemma lines_shape nodes lines : each_line nodes lines -> table_shape_b nodes = true.
Proof.
  intros H. apply table_shape_iff. intros x Hx. unfold each_line in H. induction H as [|y line l lines (content&->&_&Hc) _ IH]; [easy|]. destruct Hx as [<-|Hx]; [|auto].
  exists content. split; [reflexivity|]. intros c Hin. unfold elements in Hin. apply filter_In in Hin as [Hin Hel]. auto.
Qed.
Lemma lines_cells width nodes lines : each_line nodes lines -> (forall line, In line lines -> List.length line <= width) ->
  read_all (flat_map (table_line width) (table_lines normalize segment nodes)) = Ok (flat_map (fun line => line ++ repeat [] (width - List.length line)) lines, []).
Proof.
  unfold table_lines. rewrite on_elements_map. intros H. unfold each_line in H. induction H as [|x line l lines (content&->&H&_) _ IH]; intros Hw; [reflexivity|]. cbn [map flat_map].
  eapply table_line_each; [exact H|apply Hw; now left|apply IH; intros l' Hl'; apply Hw; now right|]. now rewrite <- app_assoc.
Qed.
Ltac tags_in H := let n := fresh in let E := fresh in destruct H as (n&H&E); cbn [In] in H; repeat (destruct H as [<-|H]); [..|destruct H]; subst.
Lemma means_reads :
  (forall x row, means normalize segment x row -> is_element x = true /\ reads x row) /\
  (forall nodes rows, mean_each normalize segment nodes rows -> each nodes rows) /\
  (forall nodes lines, mean_lines normalize segment nodes lines -> each_line nodes lines).
Proof.
  apply means_mutind; intros; (try (split; [reflexivity|])).
  - exists (Many (text_symbols normalize segment (XmlElement tag [XmlText (before ++ text ++ after)]))). split; [now apply layout_text|]. unfold wrap_in_row. cbn [as_array]. rewrite wrap_texts.
    unfold texts_of. cbn [text_content map concat]. rewrite app_nil_r, trim_spec by assumption. reflexivity.
  - eexists. split; [now apply layout_quoted|]. unfold wrap_in_row. cbn [as_array]. rewrite !flat_map_app, wrap_texts. unfold texts_of. cbn [text_content map concat]. rewrite app_nil_r, trim_spec by assumption. reflexivity.
  - destruct (each_all H) as (ls&E&Hl). eexists. split; [rewrite layout_flat by assumption; rewrite (reading_clean (r := reading _ _) (a := concat rows)); [reflexivity|]|exact (app_nil_r _)].
    rewrite (reading_clean _ E), wrap_many, Hl. reflexivity.
  - destruct H as [Hx (lx&E&Hr)]. exists lx. split; [|exact Hr].
    assert (El : elements (texts ++ x :: annotations) = x :: elements annotations).
    { unfold elements. rewrite filter_app. cbn [filter]. rewrite Hx. replace (filter is_element texts) with (@nil Xml); [reflexivity|]. clear - e. induction texts as [|t l IH]; [reflexivity|]. destruct (e t (or_introl eq_refl)) as [s ->]. cbn. apply IH. intros t Ht. apply e. now right. }
    rewrite layout_semantics; rewrite on_elements_map, El; [exact E|cbn; lia].
  - eexists. split; [rewrite layout_frac, (each_expect _ _ H eq_refl), (reading_clean _ (each_rows H)); reflexivity|reflexivity].
  - destruct (each_all H) as (ls&E&Hl). eexists. split; [rewrite layout_sqrt, (reading_clean (r := reading _ _) (a := concat rows)); [reflexivity|]|reflexivity].
    rewrite (reading_clean _ E), wrap_many, Hl. reflexivity.
  - eexists. split; [rewrite layout_root, (each_expect _ _ H eq_refl), (reading_clean _ (each_row_at (k := 1) H eq_refl)), (reading_clean _ (each_row_at (k := 0) H eq_refl)); reflexivity|reflexivity].
  - tags_in t.
    + destruct (each_nth (k := 0) H eq_refl) as (lb&Eb&Hb). eexists. split; [rewrite (@layout_script _ _ _ _ Sub) by (try reflexivity; exists "msub"%string; cbn; auto); rewrite (reading_clean _ Eb), (each_expect _ _ H eq_refl), (reading_clean _ (each_row_at (k := 1) H eq_refl)); reflexivity|]. rewrite wrap_app, Hb. reflexivity.
    + eexists. split; [rewrite (@layout_under _ _ _ _ Sub) by (try reflexivity; exists "munder"%string; cbn; auto); rewrite (each_expect _ _ H eq_refl), (reading_clean _ (each_row_at (k := 0) H eq_refl)), (reading_clean _ (each_row_at (k := 1) H eq_refl)); reflexivity|].
      unfold wrap_in_row. cbn [as_array]. rewrite flat_map_app, wrap_items. reflexivity.
  - tags_in t.
    + destruct (each_nth (k := 0) H eq_refl) as (lb&Eb&Hb). eexists. split; [rewrite (@layout_script _ _ _ _ Sup) by (try reflexivity; exists "msup"%string; cbn; auto); rewrite (reading_clean _ Eb), (each_expect _ _ H eq_refl), (reading_clean _ (each_row_at (k := 1) H eq_refl)); reflexivity|]. rewrite wrap_app, Hb. reflexivity.
    + eexists. split; [rewrite (@layout_under _ _ _ _ Sup) by (try reflexivity; exists "mover"%string; cbn; auto); rewrite (each_expect _ _ H eq_refl), (reading_clean _ (each_row_at (k := 0) H eq_refl)), (reading_clean _ (each_row_at (k := 1) H eq_refl)); reflexivity|].
      unfold wrap_in_row. cbn [as_array]. rewrite flat_map_app, wrap_items. reflexivity.
  - tags_in t.
    + destruct (each_nth (k := 0) H eq_refl) as (lb&Eb&Hb). eexists. split; [rewrite layout_subsup, (reading_clean _ Eb), (each_expect _ _ H eq_refl), (reading_clean _ (each_row_at (k := 1) H eq_refl)), (reading_clean _ (each_row_at (k := 2) H eq_refl)); reflexivity|]. rewrite wrap_app, Hb. reflexivity.
    + eexists. split; [rewrite layout_underover, (each_expect _ _ H eq_refl), (reading_clean _ (each_row_at (k := 0) H eq_refl)), (reading_clean _ (each_row_at (k := 1) H eq_refl)), (reading_clean _ (each_row_at (k := 2) H eq_refl)); reflexivity|].
      unfold wrap_in_row. cbn [as_array]. rewrite flat_map_app, wrap_items. reflexivity.
  - eexists. split; [rewrite layout_table, (lines_shape H), (lines_width H), (max_width l e), (reading_clean _ (lines_cells H l)); reflexivity|reflexivity].
  - constructor.
  - exact H.
  - destruct H as [Hx H]. unfold each, elements. cbn [filter]. rewrite Hx. constructor; assumption.
  - constructor.
  - exact H.
  - unfold each_line, elements. cbn [filter is_element]. constructor; [exists content; auto|assumption].
Qed.
Theorem means_read nodes row : means normalize segment (XmlElement (lit "math") nodes) row -> from_element normalize segment (XmlElement (lit "math") nodes) = Ok (row, []).
Proof.
  intros H. destruct (proj1 means_reads _ _ H) as [_ (l&E&Hl)]. unfold from_element. change (tag_is (lit "math") ["math"%string]) with true. cbn [assert_ bind]. rewrite E. cbn [bind].
  rewrite layout_flat in E by (exists "math"%string; cbn; auto). apply reading_ok in E as (r&e1&e2&_&E&_). inv E. cbn. rewrite app_nil_r. reflexivity.
Qed.


(** ** Writing *)
Notation means := (means normalize segment).
Notation mean_each := (mean_each normalize segment).
Notation mean_lines := (mean_lines normalize segment).
Notation expressible := (expressible normalize segment).
Definition mtag (name : string) (nodes : list Xml) : Xml := XmlElement (lit name) nodes.
Lemma row_written (row : InputRow) : (forall n, In n row -> exists x, means x [n]) -> exists nodes, mean_each nodes (map (fun n => [n]) row).
Proof.
  induction row as [|n row IH]; intros H; [exists []; constructor|]. destruct (H n (or_introl eq_refl)) as (x&Hx). destruct IH as (nodes&Hn); [intros m Hm; apply H; now right|].
  exists (x :: nodes). cbn [map]. constructor; assumption.
Qed.
Lemma concat_singles A (l : list A) : concat (map (fun n => [n]) l) = l.
Proof. induction l as [|a l IH]; [reflexivity|]. cbn. now rewrite IH. Qed.
Lemma cell_written name (row : InputRow) : In name ["math"; "mrow"; "mtd"]%string -> (forall n, In n row -> exists x, means x [n]) -> exists nodes, means (mtag name nodes) row.
Proof.
  intros Hn H. destruct (row_written H) as (nodes&Hr). exists nodes. rewrite <- (concat_singles row). apply means_row; [exists name; auto|exact Hr].
Qed.
Lemma cells_written (cells : list InputRow) : (forall cell, In cell cells -> exists nodes, means (mtag "mtd" nodes) cell) ->
  exists nodes, mean_each nodes cells /\ forall c, In c nodes -> exists l, c = XmlElement (lit "mtd") l.
Proof.
  induction cells as [|cell cells IH]; intros H; [exists []; split; [constructor|easy]|].
  destruct (H cell (or_introl eq_refl)) as (l&Hl).
  destruct IH as (nodes&Hn&Hd); [intros c Hc; apply H; now right|]. exists (mtag "mtd" l :: nodes). split; [constructor; assumption|]. intros c [<-|Hc]; [exists l; reflexivity|auto].
Qed.
Lemma lines_written h w : forall (cells : list InputRow), List.length cells = h * w -> (forall cell, In cell cells -> exists nodes, means (mtag "mtd" nodes) cell) ->
  exists nodes lines, mean_lines nodes lines /\ concat lines = cells /\ List.length lines = h /\ forall line, In line lines -> List.length line = w.
Proof.
  induction h as [|h IH]; intros cells Hl H.
  - destruct cells; [|discriminate]. exists [], []. split; [constructor|]. auto. split; [reflexivity|]. split; [reflexivity|easy].
  - destruct (IH (skipn w cells)) as (nodes&lines&Hm&Hc&Hh&Hw); [rewrite skipn_length, Hl; cbn; lia|intros c Hin; apply H; rewrite <- (firstn_skipn w cells); apply in_or_app; now right|].
    destruct (cells_written (cells := firstn w cells)) as (l&Hle&Hd); [intros c Hin; apply H; rewrite <- (firstn_skipn w cells); apply in_or_app; now left|].
    exists (XmlElement (lit "mtr") l :: nodes), (firstn w cells :: lines). repeat split.
    + constructor; [exact Hle|auto|exact Hm].
    + cbn [concat]. rewrite Hc. apply firstn_skipn.
    + cbn. now rewrite Hh.
    + intros line [<-|Hin]; [|auto]. rewrite firstn_length, Hl. cbn. lia.
Qed.
Lemma full_lines (lines : list (list InputRow)) w : (forall line, In line lines -> List.length line = w) -> flat_map (fun line => line ++ repeat [] (w - List.length line)) lines = concat lines.
Proof.
  induction lines as [|line lines IH]; intros H; [reflexivity|]. cbn [flat_map concat]. rewrite (H line (or_introl eq_refl)), Nat.sub_diag. cbn [repeat]. rewrite app_nil_r. f_equal. apply IH. intros l Hl. apply H. now right.
Qed.
Lemma mtd_nil : exists nodes, means (mtag "mtd" nodes) [].
Proof. exists []. apply (@means_row _ _ (lit "mtd") [] []); [exists "mtd"%string; cbn; auto|constructor]. Qed.
Lemma shape_written v (cells : list InputRow) w : 0 < w -> cells <> [] -> List.length cells mod w = 0 -> shape v (List.length cells) w ->
  (forall cell, In cell cells -> exists nodes, means (mtag "mtd" nodes) cell) -> exists x, means x [Container v (mkGrid cells w)].
Proof.
  intros Hw Hne Hmod Hv K. destruct v; cbn in Hv.
  + destruct Hv as [Hl ->]. destruct (cells_written K) as (nodes&Hn&_). destruct cells as [|a [|b [|]]]; try discriminate. eexists. eapply means_fraction. exact Hn.
  + destruct Hv as [Hl ->]. destruct cells as [|a [|b [|]]]; try discriminate. destruct (cells_written (cells := [b; a])) as (nodes&Hn&_); [intros c Hin; apply K; cbn in *; tauto|]. eexists. eapply means_root. exact Hn.
  + destruct Hv as [Hl ->]. destruct cells as [|a [|]]; try discriminate. destruct (cells_written (cells := [[]; a])) as (nodes&Hn&_); [intros c [<-|Hin]; [exact mtd_nil|apply K; exact Hin]|].
    eexists. eapply (@means_sup _ _ (lit "msup") nodes [] a); [exists "msup"%string; cbn; auto|exact Hn].
  + destruct Hv as [Hl ->]. destruct cells as [|a [|]]; try discriminate. destruct (cells_written (cells := [[]; a])) as (nodes&Hn&_); [intros c [<-|Hin]; [exact mtd_nil|apply K; exact Hin]|].
    eexists. eapply (@means_sub _ _ (lit "msub") nodes [] a); [exists "msub"%string; cbn; auto|exact Hn].
  + apply Nat.mod_divides in Hmod as (h&Hh); [|lia]. destruct (@lines_written h w cells) as (nodes&lines&Hm&Hcc&Hlen&Hlw); [lia|exact K|].
    exists (mtag "mtable" nodes). rewrite <- Hcc, <- (full_lines Hlw). apply means_table; [exact Hm|intros l Hin; now rewrite (Hlw _ Hin)|].
    destruct lines as [|line lines]; [subst; cbn in *; congruence|]. exists line. split; [now left|]. apply Hlw. now left.
Qed.
Lemma text_written text : tight_text text -> means (mtag "mi" [XmlText text]) (symbols_of normalize segment text).
Proof. intros H. replace text with ([] ++ text ++ []) at 1 by (cbn; apply app_nil_r). apply means_token; [exists "mi"%string; cbn; auto|easy|easy|exact H]. Qed.
Lemma node_written n : wf_node n -> (forall x, In x (node_parts n) -> expressible x) -> exists x, means x [n].
Proof.
  induction n as [s|v cells w IH] using node_ind'; intros Hwf H.
  - destruct (H _ (or_introl eq_refl)) as (Ht&Hs&Hn). exists (mtag "mi" [XmlText s]). replace [Symbol s] with (symbols_of normalize segment s) by (unfold symbols_of; now rewrite Hs; cbn; rewrite Hn).
    now apply text_written.
  - apply wf_container_inv in Hwf as (Hw&Hne&Hmod&Hc). cbn [gvalues gwidth] in *.
    apply shape_written; [exact Hw|exact Hne|exact Hmod|exact (H _ (or_introl eq_refl))|].
    intros cell Hcell. apply cell_written; [cbn; auto|]. intros n Hn. apply (IH _ Hcell _ Hn); [exact (Hc _ Hcell _ Hn)|]. intros x Hx. apply H. cbn [node_parts]. right. apply in_concat. exists (row_parts cell). split; [exact (in_map row_parts cells cell Hcell)|].
    unfold row_parts. apply in_concat. exists (node_parts n). split; [now apply in_map|exact Hx].
Qed.
Theorem doc_written doc : proper expressible doc -> exists nodes, means (XmlElement (lit "math") nodes) doc.
Proof.
  intros [Hwf Hp]. apply (@cell_written "math"%string); [cbn; auto|]. intros n Hn. apply node_written; [exact (Hwf _ Hn)|]. intros x Hx. apply Hp. unfold row_parts. apply in_concat. exists (node_parts n). split; [now apply in_map|exact Hx].
Qed.
End Means.
