(** A row of symbols as a text field (C95): a text, the two ends of the selection in it, and what can be undone and redone. *)
From Verif Require Import Base Str Grid Node Focus Edit Caret Autocomplete Editor Spec SpecMove SpecEditor SpecLeave.
Set Implicit Arguments.

Record Field := mkField { f_text : list str; f_anchor : nat; f_cursor : nat }.
Definition f_lo (f : Field) : nat := Nat.min (f_anchor f) (f_cursor f).
Definition f_hi (f : Field) : nat := Nat.max (f_anchor f) (f_cursor f).
(** The part of the text between [a] and [b] is replaced, the cursor is behind what replaces it. *)
Definition f_replace (f : Field) (a b : nat) (vs : list str) : Field :=
  mkField (firstn a (f_text f) ++ vs ++ skipn b (f_text f)) (a + length vs) (a + length vs).
Definition f_at (f : Field) (a b : nat) : option Field :=
  if (a <=? length (f_text f)) && (b <=? length (f_text f)) then Some (mkField (f_text f) a b) else None.

(** Typing, Backspace, Delete and cutting. [None] where there is nothing to delete; to cut nothing is a change that changes
    nothing. *)
Definition field_edit (f : Field) (op : Op) : option Field :=
  match op with
  | OpInsertAtCaret vs => Some (f_replace f (f_lo f) (f_hi f) vs)
  | OpRemoveAtCaret mode =>
      if f_lo f <? f_hi f then Some (f_replace f (f_lo f) (f_hi f) []) else
      match mode, f_cursor f with
      | RemoveLeft, S k => Some (f_replace f k (S k) [])
      | RemoveRight, k => if k <? length (f_text f) then Some (f_replace f k (S k) []) else None
      | RemoveRange, k => Some (f_replace f k k [])
      | _, _ => None
      end
  | _ => None
  end.
(** Arrow keys without and with Shift, clicking and dragging, selecting everything. An arrow key goes on from the end of
    a selection; Up and Down only end it, in the row of the document. [None] where the row is left: a row in a container at
    both ends. Backspace and Delete do nothing there, in the row of the document and if overflows are not checked. *)
Definition f_edge (p : RowIndices) (f : Field) (a b : nat) : option Field := match p with [] => f_at f a b | _ => None end.
Definition field_move (cfg : Cfg) (p : RowIndices) (f : Field) (op : Op) : option Field :=
  match op with
  | OpRemoveAtCaret _ => if overflow_checks cfg then None else f_edge p f (f_cursor f) (f_cursor f)
  | OpMoveCaret DUp MChar => f_edge p f (f_lo f) (f_lo f)
  | OpMoveCaret DDown MChar => f_edge p f (f_hi f) (f_hi f)
  | OpMoveCaret DLeft MChar => match f_lo f with S k => f_at f k k | 0 => f_edge p f 0 0 end
  | OpMoveCaret DRight MChar => if f_hi f <? length (f_text f) then f_at f (S (f_hi f)) (S (f_hi f)) else f_edge p f (f_hi f) (f_hi f)
  | OpSelectWithCaret DLeft MChar => match f_cursor f with S k => f_at f (f_anchor f) k | 0 => f_edge p f (f_anchor f) 0 end
  | OpSelectWithCaret DRight MChar =>
      if f_cursor f <? length (f_text f) then f_at f (f_anchor f) (S (f_cursor f)) else f_edge p f (f_anchor f) (f_cursor f)
  | OpStartSelection (mkMinPos q k) _ => if rowindices_eqb q p then f_at f k k else None
  | OpExtendSelection (mkMinPos q k) => if rowindices_eqb q p then f_at f (f_anchor f) k else None
  | OpFinishSelection => Some f
  | OpSelectAll => f_edge p f 0 (length (f_text f))
  | _ => None
  end.

(** What was changed, as it was before and after the change, the last change first. When there is nothing to undo or to
    redo, nothing happens if the editor is [fresh], and otherwise something that was done before. *)
Record Session := mkSession { s_past : list (Field * Field); s_field : Field; s_future : list (Field * Field) }.
Definition field_step (cfg : Cfg) (fresh : bool) (p : RowIndices) (s : Session) (op : Op) : option Session :=
  match op with
  | OpUndo => match s_past s with (b, a) :: past => Some (mkSession past b ((b, a) :: s_future s)) | [] => if fresh then Some s else None end
  | OpRedo => match s_future s with (b, a) :: future => Some (mkSession ((b, a) :: s_past s) a future) | [] => if fresh then Some s else None end
  | _ =>
      match field_edit (s_field s) op with
      | Some f => Some (mkSession ((s_field s, f) :: s_past s) f [])
      | None => match field_move cfg p (s_field s) op with Some f => Some (mkSession (s_past s) f (s_future s)) | None => None end
      end
  end.
Fixpoint field_run (cfg : Cfg) (fresh : bool) (p : RowIndices) (s : Session) (ops : list Op) : option Session :=
  match ops with
  | [] => Some s
  | op :: ops => match field_step cfg fresh p s op with Some s => field_run cfg fresh p s ops | None => None end
  end.

(** The editor shows the text in the row [p] of the document [doc], with its caret there. *)
Definition field_caret (p : RowIndices) (f : Field) : MinimalCaret := mkMinCaret (mkMinPos p (f_anchor f)) (mkMinPos p (f_cursor f)).
Definition shows_field {SyntaxNode} (doc : InputRow) (p : RowIndices) (f : Field) (ed : MathEditor SyntaxNode) : Prop :=
  (exists row, replaced p row (map Symbol (f_text f)) doc (ed_input ed)) /\ ed_caret ed = field_caret p f.

(** No completely typed token is corrected: arrow keys and clicks do not leave one, as [C28_exact] says, and with Shift and
    when dragging there is none. *)
Definition leaves_alone {SyntaxNode} (env : Env SyntaxNode) (ed : MathEditor SyntaxNode) (op : Op) : Prop :=
  match op with
  | OpMoveCaret _ _ | OpStartSelection _ _ =>
      forall q n rule t, completed env ed q n rule -> goes (env_cfg env) (ed_input ed) q op t -> token_kept (ed_input ed) q n t
  | OpSelectWithCaret _ _ | OpExtendSelection _ => ~ autocorrect_pending env ed
  | _ => True
  end.
Definition typed_symbols (op : Op) : list str := match op with OpInsertAtCaret vs => vs | _ => [] end.
