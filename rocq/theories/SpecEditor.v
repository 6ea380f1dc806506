(** Vocabulary for the properties of the editor. *)
From Verif Require Import Base Str Grid Node Focus Edit Caret Autocomplete Editor Spec.
Set Implicit Arguments.

(** ** A textbook history of documents *)
Record History := mkHistory { past : list InputRow; present : InputRow; future : list InputRow }.
Definition empty_history : History := mkHistory [] [] [].

Definition is_undo_redo (op : Op) : bool := match op with OpUndo | OpRedo => true | _ => false end.
(** How many documents an operation may append to the history. *)
Definition appends (op : Op) (n : nat) : Prop :=
  match op with
  | OpInsertAtCaret _ => n = 1 \/ n = 2
  | OpRemoveAtCaret _ | OpPaste _ _ => n <= 2
  | OpMoveCaret _ _ | OpSelectWithCaret _ _ | OpStartSelection _ _ | OpExtendSelection _
  | OpFinishAutocomplete true => n <= 1
  | OpSpliceAtRange _ _ => n = 1
  | _ => n = 0
  end.

Section WithSyntaxNode.
Variable SyntaxNode : Type.
Notation Out := (Out SyntaxNode).

Inductive hist_step : History -> Op -> Out -> History -> Prop :=
| hist_undo p ps d f : hist_step (mkHistory (p :: ps) d f) OpUndo (OutNone _) (mkHistory ps p (d :: f))
| hist_undo_none d f : hist_step (mkHistory [] d f) OpUndo (OutNo _) (mkHistory [] d f)
| hist_redo ps d f fs : hist_step (mkHistory ps d (f :: fs)) OpRedo (OutNone _) (mkHistory (d :: ps) f fs)
| hist_redo_none ps d : hist_step (mkHistory ps d []) OpRedo (OutNo _) (mkHistory ps d [])
| hist_stay h op out : is_undo_redo op = false -> appends op 0 -> hist_step h op out h
| hist_append1 ps d f op out d1 : is_undo_redo op = false -> appends op 1 ->
    hist_step (mkHistory ps d f) op out (mkHistory (d :: ps) d1 [])
| hist_append2 ps d f op out d1 d2 : is_undo_redo op = false -> appends op 2 ->
    hist_step (mkHistory ps d f) op out (mkHistory (d1 :: d :: ps) d2 []).

(** What an observer sees of a run: the operations, what they return and the
    document after each of them. *)
Definition Trace := list (Op * Out * InputRow).
Inductive hist_trace : History -> Trace -> History -> Prop :=
| hist_trace_nil h : hist_trace h [] h
| hist_trace_cons h op out h1 tr h2 : hist_step h op out h1 -> hist_trace h1 tr h2 ->
    hist_trace h ((op, out, present h1) :: tr) h2.

(** The trace of a run of the editor. *)
Inductive traced (env : Env SyntaxNode) : MathEditor SyntaxNode -> Trace -> MathEditor SyntaxNode -> Prop :=
| traced_nil ed : traced env ed [] ed
| traced_cons ed op ed1 out tr ed2 : step env ed op = Ok (ed1, out) -> traced env ed1 tr ed2 ->
    traced env ed ((op, out, ed_input ed1) :: tr) ed2.

(** States that can be reached from a new editor. *)
Definition reachable (env : Env SyntaxNode) (ed : MathEditor SyntaxNode) : Prop :=
  exists ops, run env (@editor_new SyntaxNode) ops = Ok ed.

(** The selected entry of the popup at the caret is completely typed: an operation
    that leaves it would autocorrect it. *)
Definition autocorrect_pending (env : Env SyntaxNode) (ed : MathEditor SyntaxNode) : Prop :=
  exists ed' results m, get_autocomplete env ed = Ok (ed', Some results) /\
    nth_error (ar_matches results) (ar_selected results) = Some m /\
    m_rule_match_length m = byte_len (rule_parser (m_rule m)).

(** Operations that are not meant to edit. *)
Definition is_passive (op : Op) : bool :=
  match op with
  | OpMoveCaret _ _ | OpSelectWithCaret _ _ | OpSelectAll | OpStartSelection _ _ | OpExtendSelection _
  | OpFinishSelection | OpCopy | OpOpenAutocomplete | OpMoveInAutocomplete _ | OpGetCaret | OpGetSyntaxTree
  | OpFinishAutocomplete false => true
  | _ => false
  end.
(** Operations that always edit at the caret before anything else. *)
Definition is_direct (op : Op) : bool :=
  match op with
  | OpInsertAtCaret _ | OpPaste _ _ | OpFinishAutocomplete _ | OpSpliceAtRange _ _ => true
  | _ => false
  end.

(** How many nodes are selected. *)
Definition selected_nodes (r : MinRange) : nat := Nat.max (mr_start r) (mr_end r) - Nat.min (mr_start r) (mr_end r).
(** Operations that do not replace nodes by as many other ones (which may be the same). *)
Definition resizes (env : Env SyntaxNode) (ed : MathEditor SyntaxNode) (op : Op) : Prop :=
  match op with
  | OpUndo | OpRedo => False
  | OpRemoveAtCaret RemoveRange => forall m, get_caret ed = Ok (MSelRow m) -> selected_nodes m <> 0
  | OpInsertAtCaret vs => forall m, get_caret ed = Ok (MSelRow m) -> selected_nodes m <> length vs
  | OpPaste data _ => forall m nodes, get_caret ed = Ok (MSelRow m) -> env_deserialize env data = Some nodes ->
      selected_nodes m <> length nodes
  | OpSpliceAtRange r vs => selected_nodes r <> length vs
  | OpFinishAutocomplete true => forall ed' r m, get_autocomplete env ed = Ok (ed', Some r) ->
      nth_error (ar_matches r) (ar_selected r) = Some m ->
      selected_nodes (get_caret_range r m) <> length (rule_result (m_rule m))
  | _ => True
  end.

(** How many undo steps were recorded from [ed] to [ed']. *)
Definition recorded_steps (ed ed' : MathEditor SyntaxNode) : nat :=
  length (undo_stack (ed_undo ed')) - length (undo_stack (ed_undo ed)).
(** Calling undo [n] times. *)
Definition undo_times (env : Env SyntaxNode) (n : nat) (ed : MathEditor SyntaxNode) : Res (MathEditor SyntaxNode) :=
  run env ed (repeat OpUndo n).
End WithSyntaxNode.

(** ** A timeline of actions with a cursor *)
Record Timeline (T : Type) := mkTimeline { tl_actions : list T; tl_cursor : nat }.
Arguments mkTimeline {T}.
Inductive Call (T : Type) := CPush (a : T) | CUndo | CRedo.
Arguments CPush {T}. Arguments CUndo {T}. Arguments CRedo {T}.

Definition tl_call {T} (inverse : T -> T) (t : Timeline T) (c : Call T) : Timeline T * option T :=
  match c with
  | CPush a => (mkTimeline (firstn (tl_cursor t) (tl_actions t) ++ [a]) (tl_cursor t + 1), None)
  | CUndo => match tl_cursor t with
             | 0 => (t, None)
             | S k => (mkTimeline (tl_actions t) k, option_map inverse (nth_error (tl_actions t) k))
             end
  | CRedo => match nth_error (tl_actions t) (tl_cursor t) with
             | Some a => (mkTimeline (tl_actions t) (tl_cursor t + 1), Some a)
             | None => (t, None)
             end
  end.
Definition um_call {T} (inverse : T -> T) (m : UndoRedoManager T) (c : Call T) : UndoRedoManager T * option T :=
  match c with
  | CPush a => (undo_push m a, None)
  | CUndo => undo_undo inverse m
  | CRedo => undo_redo m
  end.
(** The results of a sequence of calls. *)
Fixpoint calls {S R C} (f : S -> C -> S * R) (s : S) (cs : list C) : S * list R :=
  match cs with
  | [] => (s, [])
  | c :: cs => let (s1, r) := f s c in let (s2, rs) := calls f s1 cs in (s2, r :: rs)
  end.

(** ** Replacing nodes *)
(** [doc'] is [doc] with the nodes [l..r] of the row at [p] replaced by [vs]. *)
Definition nodes_replaced (doc : InputRow) (p : RowIndices) (l r : nat) (vs : list InputNode) (doc' : InputRow) : Prop :=
  exists row, l <= r /\ r <= length row /\ replaced p row (firstn l row ++ vs ++ skipn r row) doc doc'.

(** Exactly the symbol next to [p] in direction [d] is removed. *)
Definition symbol_removed (doc : InputRow) (p : MinPos) (d : HorizontalDirection) (doc' : InputRow) : Prop :=
  exists i s, match d with HLeft => mp_offset p = S i | HRight => mp_offset p = i end /\
    node_get doc (mp_row p) i = Some (Symbol s) /\ nodes_replaced doc (mp_row p) i (S i) [] doc'.
(** The container around [p], or the one to the right of [p], is replaced by its
    content. *)
Definition unwrapped (doc : InputRow) (p : MinPos) (q : RowIndices) (i : nat) (content : list InputNode) (doc' : InputRow) : Prop :=
  exists v g, node_get doc q i = Some (Container v g) /\ content = concat (gvalues g) /\
    ((q = mp_row p /\ i = mp_offset p) \/ exists j, mp_row p = q ++ [(i, j)]) /\
    nodes_replaced doc q i (S i) content doc'.

(** The ends of a range, whichever direction it has. *)
Definition lo (m : MinRange) := Nat.min (mr_start m) (mr_end m).
Definition hi (m : MinRange) := Nat.max (mr_start m) (mr_end m).
(** The [n] nodes in front of a position. *)
Definition token (q : MinPos) (n : nat) : MinRange := mkMinRange (mp_row q) (mp_offset q) (mp_offset q - n).
(** Some nodes were replaced by the result of an autocomplete rule. *)
Definition autocorrected_to {SyntaxNode} (env : Env SyntaxNode) (doc doc' : InputRow) : Prop :=
  exists range rule, In rule (env_rules env) /\ nodes_replaced doc (mr_row range) (lo range) (hi range) (rule_result rule) doc'.
(** Backspace and Delete. *)
Definition remove_dir (mode : CaretRemoveMode) : option HorizontalDirection :=
  match mode with RemoveLeft => Some HLeft | RemoveRight => Some HRight | RemoveRange => None end.
(** All symbols of a row from left to right, also those within containers. *)
Definition row_symbols (r : InputRow) : list str := concat (map node_symbols r).
