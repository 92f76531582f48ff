(** Row-major (C / NumPy) order, stated without loops over the code's data. *)
From Verif Require Export MArrayModel.

Fixpoint size_of (shape : list Z) : Z := match shape with [] => 1 | s :: ss => s * size_of ss end.
Fixpoint row_major (shape idx : list Z) : Z :=
  match shape, idx with
  | s :: ss, i :: is => i * size_of ss + row_major ss is
  | _, _ => 0
  end.
(** Valid multi-indices of a shape. *)
Definition in_shape (shape idx : list Z) : Prop := Forall2 (fun s i => 0 <= i < s) shape idx.
Definition valid_shape (shape : list Z) : Prop := Forall (fun s => 0 <= s) shape.
(** Strict lexicographic order. *)
Inductive lex : list Z -> list Z -> Prop :=
| lex_here i j is js : i < j -> lex (i :: is) (j :: js)
| lex_later i is js : lex is js -> lex (i :: is) (i :: js).
