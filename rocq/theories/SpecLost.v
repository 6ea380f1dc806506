(** What a caret that is not in the document means (C19). *)
From Verif Require Import Base Str Grid Node Focus Edit Caret Autocomplete Editor.
Set Implicit Arguments.
(** Operations that ask where the caret is *)
Definition needs_caret (op : Op) : bool :=
  match op with
  | OpSelectAll | OpUndo | OpRedo | OpFinishSelection | OpFinishAutocomplete false | OpGetSyntaxTree | OpSpliceAtRange _ _ => false
  | _ => true
  end.
