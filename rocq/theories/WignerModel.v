(** Model of freud/order/Wigner3j.cc: the table of Wigner 3j symbols.  The loops over it are [reduce3j] in SteinModel.v.
    The decimal literals are taken exactly; the compiler's rounding to double and the cast to float are not modelled. *)
From Verif Require Export SteinModel WignerTable.
From Coq Require Import Reals ZArith List.
Local Open Scope R_scope.

(* Wigner3j.cc:59-5833; [None] is std::out_of_range *)
Definition get_wigner3j (l : nat) : option (list R) :=
  option_map (fun rows => map (fun m => IZR m / 10 ^ 20) (concat rows)) (w3j_rows l).
