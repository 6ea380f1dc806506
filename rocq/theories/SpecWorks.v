(** Exactly when an operation does not panic, as far as no token is left behind that would be corrected (C20). *)
From Verif Require Import Base Str Grid Node Focus Edit Caret Autocomplete Editor Spec SpecAuto SpecMove SpecEditor SpecSafety.
Set Implicit Arguments.

Section WithSyntaxNode.
Variable SyntaxNode : Type.
Implicit Type env : Env SyntaxNode.
(** What is not finished: moving by words and lines, everything but moving if cells are selected, pasting of plain text. In builds with
    overflow checks: what subtracts from zero. *)
Definition works env (ed : MathEditor SyntaxNode) (op : Op) : Prop :=
  match op with
  | OpMoveCaret d mode => forall m, get_caret ed = Ok (MSelRow m) ->
      mode = MChar /\ (overflow_checks (env_cfg env) = true -> d = DLeft -> ~ at_cell_zero (range_left m))
  | OpSelectWithCaret d mode => mode = MChar /\ exists m, get_caret ed = Ok (MSelRow m) /\
      (overflow_checks (env_cfg env) = true -> d = DLeft -> ~ at_cell_zero (mkMinPos (mr_row m) (mr_end m)))
  | OpRemoveAtCaret mode => row_selected ed /\
      (overflow_checks (env_cfg env) = true -> forall q, ed_caret ed = collapsed q ->
       match remove_dir mode with
       | Some HLeft => q <> here 0 /\ ~ backspace_leaves (ed_input ed) q
       | Some HRight => q <> here (length (ed_input ed))
       | None => True
       end)
  | OpInsertAtCaret _ | OpCopy => row_selected ed
  | OpPaste data json => json = true /\ (row_selected ed \/ env_deserialize env data = None)
  | OpGetSyntaxTree => exists t, env_parse env (ed_input ed) = Ok t
  | _ => True
  end.
End WithSyntaxNode.
