(** Inner products of lists of tensors. *)
From Coq Require Import List Reals.
From Verif Require Import TensorModel ConvReal.
Definition pairings (gs ts : list (tensor R)) : R := fold_right Rplus 0%R (map (fun p => pairing (fst p) (snd p)) (combine gs ts)).
