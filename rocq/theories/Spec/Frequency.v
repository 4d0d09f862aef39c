(** How many of a list of results have a property. *)
From Verif Require Import Model.Base.

(** exactly j of the elements of l satisfy P *)
Inductive hits {A} (P : A -> Prop) : list A -> nat -> Prop :=
| hits_nil : hits P [] 0
| hits_in a l j : P a -> hits P l j -> hits P (a :: l) (S j)
| hits_out a l j : ~ P a -> hits P l j -> hits P (a :: l) j.
