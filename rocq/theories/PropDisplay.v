(** Property C122: printing tensors. *)
From Coq Require Import String List Arith ZArith Bool Lia.
From Verif Require Import Base IndexSpec LayoutModel ViewSpec KernelModel TensorModel TensorSpec TensorProofs EncodeModel EncodeSpec EncodeProofs.
From Verif Require Import DisplayModel DisplaySpec DisplayProofs.
Import ListNotations.

(** C122: the visible elements are shown at their places, each inside as many brackets as there are axes, under the
    conditions on views of C12, exactly if no axis but the last has size 0. *)
Theorem C122_display_partial : forall A (text : A -> string) t, good t ->
  (is_contiguous (tlay t) = true -> exact_storage t) -> (is_contiguous (tlay t) = false -> loffset (tlay t) = 0) ->
  (~ inner_zero (tshape t) -> exists p, display text t = Ok p /\ shows t p) /\
  (inner_zero (tshape t) -> display text t = Panic).
Proof. intros A text t. exact (display_shows text t). Qed.
Print Assumptions C122_display_partial.

(** Debug output shows the first and last elements of the row-major order, inside one pair of brackets unless every
    axis has size 1, and does not panic. *)
Theorem C122_debug_partial : forall A (t : tensor A), good t ->
  (is_contiguous (tlay t) = true -> exact_storage t) -> (is_contiguous (tlay t) = false -> loffset (tlay t) = 0) ->
  exists p, debug t = Ok p /\
    map Some (items p) = map (fun k => elem t (unravel (tshape t) k)) (filter (visible (nelem (tshape t))) (seq 0 (nelem (tshape t)))) /\
    nested (if forallb (fun d => d =? 1) (tshape t) then 0 else 1) 0 p = Some 0.
Proof. intros A t G C O. destruct (flatten_partial A t G C O) as (l & E & R). exact (debug_shows t l E R). Qed.
Print Assumptions C122_debug_partial.

(** C122 is false for an empty tensor of two axes, whose printing divides by zero ... *)
Theorem C122_empty_refuted : good (mkT (@nil nat) (from_shape [0; 3])) /\
  forall text, display text (mkT (@nil nat) (from_shape [0; 3])) = Panic.
Proof. split; [now apply from_shape_good|]. reflexivity. Qed.
Print Assumptions C122_empty_refuted.

(** ... and for slices: of one axis the parent is shown, of two axes other rows. *)
Theorem C122_slice_refuted :
  ~ (forall text (t : tensor nat) o u p, good t -> exact_storage t -> regular o (tshape t) -> t_view 0 o t = Ok u ->
     display text u = Ok p -> shows u p).
Proof.
  intro H.
  assert (X := H (fun _ => ""%string) (mkT [10; 11; 12; 13; 14; 15] (from_shape [3; 2])) (VSlice 0 1 (Some 3%Z) 1)
    (mkT [10; 11; 12; 13; 14; 15] (mkLayout [2; 2] [2; 1] 2)) _ (from_shape_good _ [10; 11; 12; 13; 14; 15] [3; 2] eq_refl) eq_refl eq_refl eq_refl eq_refl).
  destruct X as [X _]. discriminate X.
Qed.
Print Assumptions C122_slice_refuted.

Definition digits (n : nat) : string := if n <? 10 then "1"%string else "10"%string.
Definition new_row {A} : list (piece A) := [Fixed ","; Fixed (String (Ascii.ascii_of_nat 10) EmptyString); Fixed " "]%string.
Example C122_ex :
  display digits (mkT [0; 1; 2; 30; 4; 5] (mkLayout [3; 2] [1; 3] 0)) =
    Ok (Open :: [Open; Item 0 2; Fixed ", "; Item 30 2; Close] ++ new_row ++ [Open; Item 1 2; Fixed ", "; Item 4 2; Close]
        ++ new_row ++ [Open; Item 2 2; Fixed ", "; Item 5 2; Close; Close]) /\
  items (row 0 (seq 0 12)) = [0; 1; 2; 3; 8; 9; 10; 11] /\
  (do p <- display digits (mkT (seq 0 27) (from_shape [3; 9])) ; Ok (items p)) = Ok [0; 1; 2; 3; 5; 6; 7; 8; 9; 10; 11; 12; 14; 15; 16; 17; 18; 19; 20; 21; 23; 24; 25; 26] /\
  display digits (mkT (@nil nat) (from_shape [2; 0])) = Ok (Open :: [Open; Close] ++ new_row ++ [Open; Close; Close]).
Proof. repeat split; vm_compute; reflexivity. Qed.
