(** C69-C72: onehot, nonzero, unique, compress. *)
From Coq Require Import List Arith ZArith Bool Lia.
From Verif Require Import Base IndexSpec LayoutModel ViewSpec KernelModel KernelProofs TensorModel TensorSpec
  SortModel SortProofs CountModel CountProofs CountProofs2 CountProofs3 CountProofs4 PropSort.
Import ListNotations.

(** ** C69 *)
(** onehot of an index tensor stored densely from offset 0: 1 where the class coordinate
    is the index (counted from the end when negative), 0 elsewhere; an index out of range
    gives a row of zeros.  Missing: index views, axes out of range, indices outside i32
    (all refuted below), rank above 31. *)
Theorem C69_onehot_partial : forall (A : Type) (zero one : A) s ixs classes a,
  length ixs = nelem s -> axis_ok (S (length s)) a -> length s <= 31 ->
  (forall x, In x ixs -> - 2 ^ 31 <= x < 2 ^ 31)%Z ->
  let t := mkT ixs (from_shape s) in let ax := axis_of (S (length s)) a in
  exists r, t_onehot zero one t classes a = Ok r /\ good r /\ tshape r = insert_at s ax classes /\
    forall i x c, valid s i -> elem t i = Some x -> c < classes ->
      elem r (insert_at i ax c) =
      Some (if ((if x <? 0 then x + Z.of_nat classes else x) =? Z.of_nat c)%Z then one else zero).
Proof. intros. now apply t_onehot_spec. Qed.
Print Assumptions C69_onehot_partial.
Example C69_onehot_example :
  t_onehot 0 1 (mkT [2; -1; 0; 7; -5; 1]%Z (from_shape [2; 3])) 3 1%Z =
  Ok (mkT [0;0;1; 0;0;0; 1;1;0;  0;0;0; 0;0;1; 0;0;0] (from_shape [2; 3; 3])).
Proof. reflexivity. Qed.
Example C69_onehot_hyps : axis_ok 3 1%Z /\ axis_ok 3 (-1)%Z /\ (forall x, In x [2; -1; 0; 7; -5; 1]%Z -> - 2 ^ 31 <= x < 2 ^ 31)%Z.
Proof. unfold axis_ok. repeat split; try lia; simpl in *; lia. Qed.

(** A reversed index view is read in storage order. *)
Theorem C69_view_refuted : exists (t : tensor Z) r,
  good t /\ elem t [0] = Some 1%Z /\ tshape t = [1] /\
  t_onehot 0 1 t 3 0%Z = Ok r /\ elem r [1; 0] = Some 0.
Proof.
  exists (mkT [0; 1]%Z (mkLayout [1] [1] 1)). eexists. split.
  - split; [reflexivity|]. intros i V. destruct i as [|x [|? ?]]; simpl in V; try tauto. unfold addr. simpl. lia.
  - repeat split.
Qed.
Print Assumptions C69_view_refuted.
(** An axis out of range is not rejected: undefined behaviour. *)
Theorem C69_axis_refuted : exists t : tensor Z, good t /\ ~ axis_ok (S (length (tshape t))) 5%Z /\
  t_onehot 0 1 t 3 5%Z = Panic.
Proof.
  exists (mkT [0; 1]%Z (from_shape [2])). split; [|split].
  - split; [reflexivity|]. intros i V. destruct i as [|x [|? ?]]; simpl in V; try tauto. unfold addr. simpl. lia.
  - unfold axis_ok. simpl. lia.
  - reflexivity.
Qed.
Print Assumptions C69_axis_refuted.
(** A 64-bit index 2^32 names class 0. *)
Theorem C69_wide_refuted :
  t_onehot 0 1 (mkT [2 ^ 32]%Z (from_shape [1])) 3 1%Z = Ok (mkT [1; 0; 0] (from_shape [1; 3])).
Proof. reflexivity. Qed.
Print Assumptions C69_wide_refuted.

(** ** C70 *)
(** nonzero lists the indices of the non-zero elements of any view, in row-major order.
    Missing: rank above 32 (refuted below). *)
Theorem C70_nonzero_partial : forall (A : Type) (nz : A -> bool) (t : tensor A), good t -> length (tshape t) <= 32 ->
  let rows := filter (fun i => match elem t i with Some x => nz x | None => false end) (all_idx (tshape t)) in
  exists r, t_nonzero nz t = Ok r /\ good r /\ tshape r = [length rows; length (tshape t)] /\
    forall n i d x, nth_error rows n = Some i -> nth_error i d = Some x -> elem r [n; d] = Some x.
Proof. intros. now apply t_nonzero_spec. Qed.
Print Assumptions C70_nonzero_partial.
Example C70_nonzero_example :
  t_nonzero (fun x => negb (x =? 0)) (mkT [9; 0; 4; 5; 0; 0; 7] (mkLayout [2; 3] [1; 2] 1)) =
  Ok (mkT [0;1; 1;0; 1;2] (from_shape [3; 2])).
Proof. reflexivity. Qed.
Example C70_nonzero_none : t_nonzero (fun x => negb (x =? 0)) (mkT [0; 0] (from_shape [2])) = Ok (mkT [] (from_shape [0; 1])).
Proof. reflexivity. Qed.
(** A scalar of 33 axes overruns the kernel's index array. *)
Theorem C70_rank_refuted : t_nonzero (fun x => negb (x =? 0)) (mkT [1] (from_shape (repeat 1 33))) = Panic.
Proof. reflexivity. Qed.
Print Assumptions C70_rank_refuted.

(** ** C71 *)
(** unique: the values are strictly increasing in the sort key and occur in the input,
    the inverse maps each element to the equal value, the counts are the numbers of equal
    elements.  The contract of the library sort is assumed, and that the key's order is a
    strict weak order (no NaN) whose equality is the element equality.  Missing: the keys
    of signed integers are not in the order of the values (refuted below). *)
Theorem C71_unique_partial : forall (A K : Type) (key : A -> K) (klt : K -> K -> bool) (same : A -> A -> bool) qsort,
  (forall a b, klt a b = true -> klt b a = false) ->
  (forall a b c, klt a b = false -> klt b c = false -> klt a c = false) ->
  (forall a b, same a b = negb (klt (key a) (key b)) && negb (klt (key b) (key a))) ->
  qsort_ok K qsort ->
  forall z t, good t ->
  exists vs inv cs m, t_unique key klt same qsort z t = Ok (vs, inv, cs) /\
    good vs /\ good inv /\ good cs /\
    tshape vs = [m] /\ tshape inv = [nelem (tshape t)] /\ tshape cs = [m] /\
    (forall r r' x y, r < r' -> r' < m -> elem vs [r] = Some x -> elem vs [r'] = Some y -> klt (key x) (key y) = true) /\
    (forall r, r < m -> exists i x, valid (tshape t) i /\ elem t i = Some x /\ elem vs [r] = Some x) /\
    (forall i x, valid (tshape t) i -> elem t i = Some x ->
       exists r y, r < m /\ elem inv [ravel (tshape t) i] = Some r /\ elem vs [r] = Some y /\ same x y = true) /\
    (forall r y, r < m -> elem vs [r] = Some y ->
       elem cs [r] = Some (length (filter (fun i => match elem t i with Some x => same x y | None => false end)
         (all_idx (tshape t))))).
Proof. intros. now apply t_unique_spec. Qed.
Print Assumptions C71_unique_partial.
Example C71_unique_example :
  t_unique (fun x => x) Z.ltb Z.eqb isort 0%Z (mkT [5; 2; 5; 9; 2; 5; 8]%Z (mkLayout [3; 2] [2; 1] 0)) =
  Ok (mkT [2; 5; 9]%Z (from_shape [3]), mkT [1; 0; 1; 2; 0; 1] (from_shape [6]), mkT [2; 3; 1] (from_shape [3])).
Proof. reflexivity. Qed.
Example C71_unique_hyps :
  (forall a b, Z.ltb a b = true -> Z.ltb b a = false) /\
  (forall a b c, Z.ltb a b = false -> Z.ltb b c = false -> Z.ltb a c = false) /\
  (forall a b, Z.eqb a b = negb (Z.ltb a b) && negb (Z.ltb b a)) /\ qsort_ok Z isort.
Proof.
  split; [|split; [|split]].
  - intros a b. rewrite Z.ltb_lt, Z.ltb_ge. lia.
  - intros a b c. rewrite !Z.ltb_ge. lia.
  - intros a b. destruct (Z.eqb_spec a b) as [->|N].
    + now rewrite Z.ltb_irrefl.
    + destruct (Z.ltb_spec a b), (Z.ltb_spec b a); auto; lia.
  - apply C33_qsort_exists.
Qed.
(** Signed integers are sorted as unsigned: the values come out as 1, -1. *)
Theorem C71_signed_refuted :
  t_unique size_t_of Z.ltb Z.eqb isort 0%Z (mkT [-1; 1]%Z (from_shape [2])) =
  Ok (mkT [1; -1]%Z (from_shape [2]), mkT [1; 0] (from_shape [2]), mkT [1; 1] (from_shape [2])).
Proof. reflexivity. Qed.
Print Assumptions C71_signed_refuted.

(** ** C72 *)
(** compress without an axis keeps the elements of the flattened tensor at which the
    condition holds.  Missing: conditions that are views (refuted below). *)
Theorem C72_flat_partial : forall (A : Type) (z : A) (t : tensor A) bs, good t -> length bs = nelem (tshape t) ->
  let cond := mkT bs (from_shape [nelem (tshape t)]) in
  exists r, t_compress z t cond None = Ok r /\ good r /\ tshape r = [length (true_positions cond)] /\
    forall k p, nth_error (true_positions cond) k = Some p -> elem r [k] = elem t (unravel (tshape t) p).
Proof. intros. now apply t_compress_flat_spec. Qed.
Print Assumptions C72_flat_partial.
(** With an axis it keeps the slices at which the condition holds, in order. *)
Theorem C72_axis_partial : forall (A : Type) (z : A) (t : tensor A) bs a, good t -> axis_ok (length (tshape t)) a ->
  length (tshape t) <= 32 -> length bs = nth (axis_of (length (tshape t)) a) (tshape t) 0 ->
  let cond := mkT bs (from_shape [length bs]) in
  let ax := axis_of (length (tshape t)) a in
  exists r, t_compress z t cond (Some a) = Ok r /\ good r /\
    tshape r = upd (tshape t) ax (length (true_positions cond)) /\
    forall i k p, valid (tshape r) i -> nth_error i ax = Some k -> nth_error (true_positions cond) k = Some p ->
      elem r i = elem t (upd i ax p).
Proof. intros. now apply t_compress_axis_spec. Qed.
Print Assumptions C72_axis_partial.
Example C72_flat_example :
  t_compress 0 (mkT [1;2;3;4;5;6] (mkLayout [3;2] [1;3] 0)) (mkT [true;false;false;true;true;false] (from_shape [6])) None =
  Ok (mkT [1;5;3] (from_shape [3])).
Proof. reflexivity. Qed.
Example C72_axis_example :
  t_compress 0 (mkT [1;2;3;4;5;6] (mkLayout [3;2] [1;3] 0)) (mkT [true;false;true] (from_shape [3])) (Some (-2)%Z) =
  Ok (mkT [1;4;3;6] (from_shape [2;2])).
Proof. reflexivity. Qed.
Example C72_axis_rejected :
  t_compress 0 (mkT [1;2] (from_shape [2])) (mkT [true;false] (from_shape [2])) (Some 1%Z) = Err EAxis /\
  t_compress 0 (mkT [1;2] (from_shape [2])) (mkT [true;false;true] (from_shape [3])) (Some 0%Z) = Err EInternal.
Proof. split; reflexivity. Qed.
(** A condition view [false] of the storage [true; false] keeps the element. *)
Theorem C72_view_refuted : exists (cond : tensor bool) r, good cond /\ tshape cond = [1] /\ elem cond [0] = Some false /\
  t_compress 0 (mkT [7] (from_shape [1])) cond None = Ok r /\ tshape r = [1] /\ elem r [0] = Some 7.
Proof.
  exists (mkT [true; false] (mkLayout [1] [1] 1)). eexists. split.
  - split; [reflexivity|]. intros i V. destruct i as [|x [|? ?]]; simpl in V; try tauto. unfold addr. simpl. lia.
  - repeat split.
Qed.
Print Assumptions C72_view_refuted.
