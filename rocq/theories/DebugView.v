(** Model of the view for debugging in src/component/math-editor.ts: the elements of rows are marked with the class "row-debug". *)
From Verif Require Import Base Grid Node Syntax Pratt Render.
Set Implicit Arguments.

(** math-editor.ts:491: [v.classList.add] for every node of an element; a text node has no [classList], which throws. *)
Fixpoint add_class (l : list Dom) : Res unit :=
  match l with
  | [] => Ok tt
  | DomElement _ _ _ :: l => add_class l
  | DomText _ :: _ => throw
  end.
(** math-editor.ts:489-494: [debugRenderRows]. The result are the paths of the elements whose nodes are marked. *)
Fixpoint debug_render_rows (x : Element) (path : list nat) : Res (list (list nat)) :=
  match x with
  | mkElement _ _ row_index children =>
      marked <- match row_index with Some _ => _ <- add_class (get_elements x) ;; Ok [path] | None => Ok [] end ;;
      rest <- (fix go k l :=
        match l with
        | [] => Ok []
        | c :: l => a <- debug_render_rows c (path ++ [k]) ;; b <- go (S k) l ;; Ok (a ++ b)
        end) 0 children ;;
      Ok (marked ++ rest)
  end.
(** math-editor.ts:487-498: [getElement] of the row indices [] is the element of the document. *)
Definition debug_view (x : Element) : Res (list (list nat)) := debug_render_rows x [].
