(** Vocabulary for the properties of the component. *)
From Coq Require Import String.
From Verif Require Import Base Str Grid Node Focus Edit Caret Autocomplete Editor Rules NameMap Syntax Pratt Grammar SyntaxFind Render Layout Json FromMathML
  Spec SpecSyntax SpecMove SpecEditor SpecSafety SpecRender Component.
Open Scope list_scope.
Open Scope nat_scope.
Set Implicit Arguments.

(** The surroundings of an editor in a page: the default rules, the default modules of the parser
    and the clipboard format. *)
Definition page (cfg : Cfg) (xs xc : N -> bool) : Env SyntaxNode :=
  mkEnv cfg default_rules (parse (default_grammar xs xc)) serialize_input_nodes (deserialize_input_nodes 4294967295).
(** The document of a component, if its editor has not panicked *)
Definition document (c : Component) : option InputRow := option_map (@ed_input SyntaxNode) (co_editor c).

(** Symbols are neither empty nor spaces, fractions and roots have two cells. *)
Definition tidy (x : Part) : Prop :=
  match x with
  | PartSymbol s => s <> [] /\ s <> [32%N]
  | PartContainer v cells _ => v = Fraction \/ v = RootV -> cells = 2
  end.

Section Shown.
Variable env : Env SyntaxNode.
Variable renderers : Renderers.
(** The formula on the screen is the one that is made from [doc]. *)
Definition shows (c : Component) (doc : InputRow) : Prop :=
  exists t x, env_parse env doc = Ok t /\ render_all renderers t = Ok x /\ co_tree c = t /\ co_result c = x /\ co_drawn c = get_elements x.
(** The caret on the screen is that of the editor: at the places of the ends of the selection, or
    around the cells from the first to the last one. *)
Definition shows_caret (c : Component) (ed : MathEditor SyntaxNode) : Prop :=
  exists sel, get_caret ed = Ok sel /\
  match sel with
  | MSelRow m => exists x a b l, get_element (co_result c) (mr_row m) = Ok x /\ get_caret_position x [] (mr_start m) = Ok a /\
      get_caret_position x [] (mr_end m) = Ok b /\ co_carets c = [CaretRow a b l] /\ (mr_start m = mr_end m -> l = [])
  | MSelGrid m => exists i j, i <= j /\ i = rstart (mg_range m) /\ (rstart (mg_range m) < rend (mg_range m) -> S j = rend (mg_range m)) /\
      co_carets c = [CaretGrid (mg_row m ++ [(mg_index m, i)]) (mg_row m ++ [(mg_index m, j)])]
  end.
(** Everything on the screen is up to date. *)
Definition up_to_date (c : Component) : Prop :=
  exists ed, co_editor c = Some ed /\ shows c (ed_input ed) /\ (co_connected c = true -> shows_caret c ed).

(** The row is as a whole not a sub- or superscript. *)
Definition no_script_alone (row : InputRow) : Prop :=
  forall n, env_parse env row = Ok n -> syn_name n <> sub_rule_name /\ syn_name n <> sup_rule_name.
(** Rows other than the root row can be clicked. *)
Definition clickable (doc : InputRow) : Prop := forall p row, p <> [] -> row_get doc p = Some row -> no_script_alone row.
(** An operation that the editor is known to survive with content made of parts that satisfy [Q]. *)
Definition safe_op (Q : Part -> Prop) (ed : MathEditor SyntaxNode) (op : Op) : Prop :=
  proper_args Q env ed op /\ keeps_caret env ed op /\ avoids_panic env ed op.
(** Besides, the document can be drawn after it. *)
Definition fine_op (ed : MathEditor SyntaxNode) (op : Op) : Prop := safe_op nonempty ed op /\
  forall ed' out, step env ed op = Ok (ed', out) -> exists x, (n <- env_parse env (ed_input ed') ;; render_all renderers n) = Ok x.
(** Dragging and double clicks are known to work in this state. *)
Definition fine_click (ed : MathEditor SyntaxNode) : Prop := ~ autocorrect_pending env ed /\ clickable (ed_input ed).
Variable normalize : str -> str.
Variable segment : str -> list str.
Definition task_op (t : InputType) : option Op :=
  match t with
  | DeleteBackward => Some (OpRemoveAtCaret RemoveLeft)
  | DeleteForward => Some (OpRemoveAtCaret RemoveRight)
  | InsertText (Some data) => Some (OpInsertAtCaret (segment data))
  | _ => None
  end.
Definition key_op (k : Key) : option Op :=
  match k with
  | KeyUp => Some (OpMoveCaret DUp MChar) | KeyDown => Some (OpMoveCaret DDown MChar)
  | KeyLeft => Some (OpMoveCaret DLeft MChar) | KeyRight => Some (OpMoveCaret DRight MChar)
  | KeyUndo => Some OpUndo | KeyRedo => Some OpRedo | KeyOther => None
  end.
(** None of the known ways in which an event makes a handler throw. Here, [fine] are the operations
    for which this is known. *)
Variable fine : MathEditor SyntaxNode -> Op -> Prop.
Definition fine_opt (c : Component) (o : option Op) : Prop :=
  forall ed op, co_editor c = Some ed -> o = Some op -> fine ed op.
Fixpoint fine_tasks (c : Component) (l : list InputType) : Prop :=
  match l with
  | [] => True
  | t :: l => fine_opt c (task_op t) /\ fine_tasks (fst (do_task env renderers segment t (set_tasks l c))) l
  end.
Definition fine_event (c : Component) (e : Event) : Prop :=
  match e with
  | EvKey k => fine_opt c (key_op k)
  | EvTimer => fine_tasks c (co_tasks c)
  | EvCopy true => forall ed, co_editor c = Some ed -> row_selected ed
  | EvCut true => forall ed, co_editor c = Some ed -> fine ed (OpRemoveAtCaret RemoveRange)
  | EvPaste (Some (json, text)) => let data := match json with [] => text | _ => json end in
      env_deserialize env data <> None /\ fine_opt c (Some (OpPaste data true))
  | EvPointerDown true _ => forall ed, co_editor c = Some ed -> clickable (ed_input ed) /\
      forall p, valid_pos (ed_input ed) p -> fine ed (OpStartSelection p MChar)
  | EvPointerUp true _ | EvPointerMove true _ | EvMouseDown _ _ => forall ed, co_editor c = Some ed -> fine_click ed
  | EvConnect m | EvAttribute m => exists math root errors, m = Some math /\ from_element normalize segment math = Ok (root, errors) /\
      forall ed, co_editor c = Some ed -> fine ed (OpSpliceAtRange (mkMinRange [] 0 (List.length (ed_input ed))) root)
  | _ => True
  end.
Fixpoint fine_all (c : Component) (l : list Event) : Prop :=
  match l with
  | [] => True
  | e :: l => fine_event c e /\ fine_all (fst (dispatch env renderers normalize segment e c)) l
  end.
End Shown.
Section Reached.
Variable env : Env SyntaxNode.
Variable renderers : Renderers.
Variable normalize : str -> str.
Variable segment : str -> list str.
(** The component after some events *)
Definition reached (c : Component) : Prop :=
  exists connected c0 l, component_new env renderers connected = Ok c0 /\ c = run_events env renderers normalize segment c0 l.
(** Events after which the formula is drawn anew. *)
Definition redraws (c : Component) (e : Event) : bool :=
  match e with
  | EvKey _ | EvCut true | EvPaste (Some _) | EvPointerDown true _ | EvConnect _ | EvAttribute _ => true
  | EvTimer => existsb (fun t => match t with DeleteBackward | DeleteForward | InsertText (Some _) => true | _ => false end) (co_tasks c)
  | _ => false
  end.
(** Dragging and double clicks, which draw only the caret anew. *)
Definition drags (e : Event) : bool :=
  match e with EvPointerUp _ _ | EvPointerMove _ _ | EvMouseDown _ _ => true | _ => false end.
End Reached.
