(** A test, for examples, that no handler throws. It is sufficient, not necessary. *)
From Coq Require Import String.
From Verif Require Import Base Str Grid Node Focus Edit Caret Autocomplete Editor Rules NameMap Syntax Pratt Grammar SyntaxFind Render Layout Json FromMathML
  Spec SpecSyntax SpecMove SpecEditor SpecSafety SpecRender SpecDom Component SpecComponent BaseFacts TreeFacts NameMapFacts RenderFacts SafetyFacts Samples PropsRender.
Open Scope list_scope.
Open Scope nat_scope.
Set Implicit Arguments.
Unset Strict Implicit.

Definition pending_b env (ed : MathEditor SyntaxNode) : bool :=
  match get_autocomplete env ed with
  | Ok (_, Some results) => match nth_error (ar_matches results) (ar_selected results) with Some m => m_rule_match_length m =? byte_len (rule_parser (m_rule m)) | None => false end
  | _ => false
  end.
Lemma pending_b_ok (env : Env SyntaxNode) ed : pending_b env ed = false -> ~ autocorrect_pending env ed.
Proof. intros H (ed'&r&m&Hg&Hm&Hl). unfold pending_b in H. rewrite Hg, Hm, Hl, Nat.eqb_refl in H. discriminate. Qed.
Lemma pending_due (env : Env SyntaxNode) ed : ~ autocorrect_pending env ed -> ~ token_due env ed.
Proof. intros H (ed'&r&m&q&H1&H2&H3&_). apply H. exists ed', r, m. auto. Qed.
Definition tidy_b (x : Part) : bool :=
  match x with
  | PartSymbol s => negb (List.length s =? 0) && negb (str_eqb s [32%N])
  | PartContainer v n _ => match v with Fraction | RootV => n =? 2 | _ => true end
  end.
Lemma tidy_b_ok x : tidy_b x = true -> tidy x.
Proof.
  destruct x as [s|v n w]; cbn; [|intros H [-> | ->]; now apply Nat.eqb_eq]. intros H. apply andb_true_iff in H as [H1 H2]. split; intros ->; discriminate.
Qed.
Definition tidy_row_b (row : InputRow) : bool := wf_rowb row && forallb tidy_b (row_parts row).
Lemma tidy_row_b_ok row : tidy_row_b row = true -> proper tidy row.
Proof. intros H. apply andb_true_iff in H as [H1 H2]. split; [now apply wf_rowb_ok|]. rewrite forallb_forall in H2. intros x Hx. apply tidy_b_ok. auto. Qed.
Definition row_selected_b (ed : MathEditor SyntaxNode) : bool := match get_caret ed with Ok (MSelRow _) => true | _ => false end.
Lemma row_selected_b_ok ed : row_selected_b ed = true -> row_selected ed.
Proof. unfold row_selected_b, row_selected. destruct (get_caret ed) as [[m|]|]; try discriminate. eauto. Qed.
Definition root_pos (p : MinPos) : bool := match mp_row p with [] => true | _ => false end.
Lemma root_pos_ok p : root_pos p = true -> mp_row p = [].
Proof. unfold root_pos. now destruct (mp_row p). Qed.
Definition safe_b env (ed : MathEditor SyntaxNode) (op : Op) : bool :=
  match op with
  | OpMoveCaret d MChar => negb (pending_b env ed) &&
      match d, get_caret ed with DLeft, Ok (MSelRow m) => negb (mp_offset (range_left m) =? 0) || root_pos (range_left m) | _, _ => true end
  | OpRemoveAtCaret mode => row_selected_b ed && negb (pending_b env ed) &&
      match mode with
      | RemoveLeft => negb (mp_offset (mc_start (ed_caret ed)) =? 0)
      | RemoveRight => negb (root_pos (mc_start (ed_caret ed))) || negb (mp_offset (mc_start (ed_caret ed)) =? List.length (ed_input ed))
      | RemoveRange => true
      end
  | OpInsertAtCaret vs => row_selected_b ed && forallb (fun s => tidy_b (PartSymbol s)) vs
  | OpUndo | OpRedo => true
  | OpPaste data json => json && row_selected_b ed && match env_deserialize env data with Some nodes => tidy_row_b nodes | None => true end
  | OpSpliceAtRange r vs => match mr_row r with [] => true | _ => false end && (mr_start r <=? List.length (ed_input ed)) && (mr_end r <=? List.length (ed_input ed)) && tidy_row_b vs &&
      root_pos (mc_start (ed_caret ed)) && root_pos (mc_end (ed_caret ed)) &&
      (mp_offset (mc_start (ed_caret ed)) + selected_nodes r <=? List.length (ed_input ed) + List.length vs) && (mp_offset (mc_end (ed_caret ed)) + selected_nodes r <=? List.length (ed_input ed) + List.length vs)
  | _ => false
  end.
Ltac ands := repeat match goal with H : _ && _ = true |- _ => apply andb_true_iff in H as [? ?] | H : negb _ = true |- _ => apply negb_true_iff in H | H : (_ <=? _) = true |- _ => apply Nat.leb_le in H | H : (_ =? _) = false |- _ => apply Nat.eqb_neq in H end.
Lemma safe_b_ok env ed op : safe_b env ed op = true -> safe_op env tidy ed op.
Proof.
  destruct op as [d mode|d mode|mode|vs| | | |p mode|p| | |data json| |accept|d| | |range vs]; cbn [safe_b]; try discriminate; intros H.
  - destruct mode; try discriminate. ands. split; [exact I|]. split; [cbn [keeps_caret]; now apply pending_due, pending_b_ok|]. cbn [avoids_panic]. split; [reflexivity|]. intros _ -> m Hm [Hz (p&i&Hp)]. rewrite Hm in *. apply orb_true_iff in H0 as [H0|H0]; ands.
    + now apply H0.
    + apply root_pos_ok in H0. rewrite H0 in Hp. destruct p; discriminate.
  - ands. split; [exact I|]. split; [destruct mode; cbn [keeps_caret]; auto; left; now apply pending_b_ok|]. cbn [avoids_panic]. split; [now apply row_selected_b_ok|]. intros _ q Hq. rewrite Hq in H0. cbn [collapsed mc_start] in H0.
    destruct mode; cbn [remove_dir]; auto; ands.
    + split; [intros ->; now apply H0|]. intros (p&i&v&g&cell&_&Hz&_). auto.
    + intros ->. apply orb_true_iff in H0 as [H0|H0]; ands; [discriminate|]. now apply H0.
  - ands. split; [cbn [proper_args]; rewrite forallb_forall in H0; intros s Hs; apply (tidy_b_ok (H0 _ Hs))|]. split; [exact I|]. now apply row_selected_b_ok.
  - split; [exact I|split; exact I].
  - split; [exact I|split; exact I].
  - ands. destruct json; [|discriminate]. split; [cbn [proper_args]; intros nodes Hn; rewrite Hn in *; now apply tidy_row_b_ok|]. split; [exact I|]. split; [reflexivity|now apply row_selected_b_ok].
  - ands. destruct range as [row a b]. cbn [mr_row mr_start mr_end] in *. destruct row; [|discriminate]. split; [|split].
    + split; [exists (ed_input ed); auto|now apply tidy_row_b_ok].
    + split; right; (split; [now apply root_pos_ok|]); intros row Hr; rewrite root_pos_ok in Hr by assumption; inv Hr; assumption.
    + exact I.
Qed.
Definition script_b env (row : InputRow) : bool :=
  match env_parse env row with Ok n => negb (path_eqb (syn_name n) sub_rule_name) && negb (path_eqb (syn_name n) sup_rule_name) | Panic _ => true end.
Lemma script_b_ok env row : script_b env row = true -> no_script_alone env row.
Proof.
  unfold script_b. intros H n E. rewrite E in H. ands. assert (R : forall p, path_eqb p p = true) by (intros; now apply path_eqb_eq). split; intros Hn; rewrite Hn, R in *; discriminate.
Qed.
Definition clickable_b env (doc : InputRow) : bool :=
  forallb (fun v => match v with Container _ g => forallb (rows_b (script_b env) 20) (gvalues g) | Symbol _ => true end) doc.
Lemma clickable_b_ok env doc : clickable_b env doc = true -> clickable env doc.
Proof.
  unfold clickable_b. intros H p row Hp Hr. rewrite forallb_forall in H. destruct p as [|[k j] p]; [now destruct Hp|]. cbn in Hr. destruct (nth_error doc k) as [[v g|]|] eqn:Ek; try discriminate.
  destruct (nth_error (gvalues g) j) as [cell|] eqn:Ej; [|discriminate]. apply nth_error_In, H in Ek. rewrite forallb_forall in Ek. apply nth_error_In, Ek in Ej.
  exact (rows_b_ok _ (fun row => no_script_alone env row) (script_b_ok (env := env)) _ _ Ej p row Hr).
Qed.

Section Check.
Variable env : Env SyntaxNode.
Variable normalize : str -> str.
Variable segment : str -> list str.
Notation rs := default_renderers.
Notation fine := (safe_op env tidy).
Definition on_ed (c : Component) (f : MathEditor SyntaxNode -> bool) : bool := match co_editor c with Some ed => f ed | None => true end.
Lemma on_ed_ok c f : on_ed c f = true -> forall ed, co_editor c = Some ed -> f ed = true.
Proof. unfold on_ed. intros H ed E. now rewrite E in H. Qed.
Definition opt_b (c : Component) (o : option Op) : bool := on_ed c (fun ed => match o with Some op => safe_b env ed op | None => true end).
Lemma opt_b_ok c o : opt_b c o = true -> fine_opt fine c o.
Proof. intros H ed op E ->. apply (on_ed_ok H) in E. now apply safe_b_ok. Qed.
Fixpoint tasks_b (c : Component) (l : list InputType) : bool :=
  match l with
  | [] => true
  | t :: l => opt_b c (task_op segment t) && tasks_b (fst (do_task env rs segment t (set_tasks l c))) l
  end.
Lemma tasks_b_ok l : forall c, tasks_b c l = true -> fine_tasks env rs segment fine c l.
Proof. induction l as [|t l IH]; intros c H; cbn [tasks_b fine_tasks] in *; [exact I|]. ands. split; [now apply opt_b_ok|auto]. Qed.
Definition event_b (c : Component) (e : Event) : bool :=
  match e with
  | EvKey k => opt_b c (key_op k)
  | EvTimer => tasks_b c (co_tasks c)
  | EvCopy true => on_ed c row_selected_b
  | EvCut true => opt_b c (Some (OpRemoveAtCaret RemoveRange))
  | EvPaste (Some (json, text)) => let data := match json with [] => text | _ => json end in
      match env_deserialize env data with Some _ => true | None => false end && opt_b c (Some (OpPaste data true))
  | EvPointerDown true _ | EvPointerUp true _ | EvPointerMove true _ | EvMouseDown _ _ => on_ed c (fun ed => negb (pending_b env ed) && clickable_b env (ed_input ed))
  | EvConnect (Some math) | EvAttribute (Some math) =>
      match from_element normalize segment math with
      | Ok (root, _) => on_ed c (fun ed => safe_b env ed (OpSpliceAtRange (mkMinRange [] 0 (List.length (ed_input ed))) root))
      | Panic _ => false
      end
  | EvConnect None | EvAttribute None => false
  | _ => true
  end.
Lemma event_b_ok c e : event_b c e = true -> fine_event env rs normalize segment fine c e.
Proof.
  assert (K : forall m, event_b c (EvAttribute m) = true -> fine_event env rs normalize segment fine c (EvAttribute m)).
  { intros [math|]; cbn [event_b fine_event]; [|discriminate]. destruct (from_element normalize segment math) as [[root errors]|] eqn:Ef; [|discriminate]. intros H. exists math, root, errors. split; [reflexivity|]. split; [exact Ef|].
    intros ed E. apply (on_ed_ok H) in E. now apply safe_b_ok. }
  assert (L : on_ed c (fun ed => negb (pending_b env ed) && clickable_b env (ed_input ed)) = true -> forall ed, co_editor c = Some ed -> fine_click env ed).
  { intros H ed E. apply (on_ed_ok H) in E. ands. split; [now apply pending_b_ok|now apply clickable_b_ok]. }
  destruct e as [k|t| |[]|[]|[[json text]|]|[] p|[] p|d p|[] p|m| |m]; cbn [event_b fine_event]; auto.
  - apply opt_b_ok.
  - apply tasks_b_ok.
  - intros H ed E. apply row_selected_b_ok. exact (on_ed_ok H E).
  - intros H ed E. exact (opt_b_ok H E eq_refl).
  - intros H. apply andb_true_iff in H as [H1 H2]. split; [now destruct (env_deserialize env _)|now apply opt_b_ok].
  - intros H ed E. destruct (L H ed E) as [Hp Hc]. split; [exact Hc|]. intros p0 Hv. split; [exact Hv|]. split; [now apply pending_due|exact I].
  - exact (K m).
  - exact (K m).
Qed.
Fixpoint all_b (c : Component) (l : list Event) : bool :=
  match l with
  | [] => true
  | e :: l => event_b c e && all_b (fst (dispatch env rs normalize segment e c)) l
  end.
Lemma all_b_ok l : forall c, all_b c l = true -> fine_all env rs normalize segment fine c l.
Proof. induction l as [|e l IH]; intros c H; cbn [all_b fine_all] in *; [exact I|]. ands. split; [now apply event_b_ok|auto]. Qed.
End Check.
