(** Property C33: top-k selection. *)
From Coq Require Import List Arith ZArith Lia Bool Permutation Sorted SpecFloat.
From Verif Require Import Base IndexSpec LayoutModel ViewSpec.
From Verif Require Import KernelModel TensorModel TensorSpec SortModel SortProofs.
Import ListNotations.

(** Topmost [k] of every fibre along the last axis: distinct positions in the
    fibre, nothing left out is better than anything taken, the value is the
    element at the returned position, in order when [sorted].  Better is [>]
    (largest) or [<] on the values converted to single precision ([key]).
    Excluded: axes other than the last, non-contiguous tensors, NaN (the
    comparison must be a strict weak order), empty outer dimensions. *)
Theorem C33_topk_partial : forall A K (gt : K -> K -> bool),
  (forall a b, gt a b = true -> gt b a = false) ->
  (forall a b c, gt a b = false -> gt b c = false -> gt a c = false) ->
  forall (key : A -> K) qsort z (t : tensor A) s n k a lg st, qsort_ok K qsort -> good t ->
  is_contiguous (tlay t) = true -> tshape t = s ++ [n] -> axis_ok (length (tshape t)) a ->
  axis_of (length (tshape t)) a = length s -> 0 < k -> k <= n -> 0 < nelem s ->
  exists v ix, t_topk key gt qsort z t k a lg st = Ok (v, ix) /\ good v /\ good ix /\
    tshape v = s ++ [k] /\ tshape ix = s ++ [k] /\
    forall o, valid s o -> exists row js, length row = n /\
      (forall i, i < n -> nth_error row i = elem t (o ++ [i])) /\
      (length js = k /\ NoDup js /\ (forall j, In j js -> j < length row) /\
       (forall i j x y, In i js -> ~ In j js -> nth_error row i = Some x -> nth_error row j = Some y ->
          (if lg then gt (key y) (key x) else gt (key x) (key y)) = false) /\
       (st = true -> forall p q i j x y, p < q -> nth_error js p = Some i -> nth_error js q = Some j ->
          nth_error row i = Some x -> nth_error row j = Some y ->
          (if lg then gt (key y) (key x) else gt (key x) (key y)) = false)) /\
      forall i, i < k -> exists j, nth_error js i = Some j /\
        elem v (o ++ [i]) = elem t (o ++ [j]) /\ elem ix (o ++ [i]) = Some (Z.of_nat j).
Proof. intros A K gt H1 H2 key. exact (t_topk_spec A K gt H1 H2 key). Qed.
Print Assumptions C33_topk_partial.

(** [k] beyond the size of the axis is refused. *)
Theorem C33_too_many : forall A K (gt : K -> K -> bool) (key : A -> K) qsort z (t : tensor A) n k lg st,
  tshape t = [n] -> n < k -> t_topk key gt qsort z t k 0%Z lg st = Err EInternal.
Proof.
  intros A K gt key qsort z t n k lg st Hs Hk. unfold t_topk. unfold tshape in Hs. rewrite Hs. destruct k as [|k]; [lia|]. cbn.
  replace (n <=? k) with true by (symmetry; apply Nat.leb_le; lia). reflexivity.
Qed.
Print Assumptions C33_too_many.

(** A sort meeting the contract of [qsort], for the examples. *)
Fixpoint ins {X} (bf : X -> X -> bool) (x : X) (l : list X) : list X :=
  match l with
  | [] => [x]
  | y :: r => if bf x y then x :: l else y :: ins bf x r
  end.
Fixpoint isort {X} (bf : X -> X -> bool) (l : list X) : list X :=
  match l with [] => [] | x :: r => ins bf x (isort bf r) end.
Theorem C33_qsort_exists : forall K, qsort_ok K isort.
Proof.
  intros K bf l As Ng.
  assert (P : forall x l, Permutation (x :: l) (ins bf x l)).
  { intros x. induction l0 as [|y r IH]; cbn [ins]; auto. destruct (bf x y); auto.
    transitivity (y :: x :: r); [constructor|]. constructor. exact IH. }
  assert (S : forall x l, StronglySorted (fun a b => bf b a = false) l ->
                          StronglySorted (fun a b => bf b a = false) (ins bf x l)).
  { intros x l0 H. induction H as [|y r H IH F]; cbn [ins].
    - repeat constructor.
    - destruct (bf x y) eqn:E.
      + constructor; [now constructor|]. constructor; [now apply As|].
        rewrite Forall_forall in *. intros w Hw. apply (Ng w y x); auto.
      + constructor; auto. rewrite Forall_forall in *. intros w Hw.
        apply (Permutation_in _ (Permutation_sym (P x r))) in Hw. destruct Hw as [->|Hw]; auto. }
  induction l as [|x r [IH1 IH2]]; cbn [isort]; [repeat constructor|]. split; auto.
  rewrite <- P. now constructor.
Qed.
Print Assumptions C33_qsort_exists.

Example C33_ex :  (* two rows with ties; the three largest, in order *)
  t_topk (fun x => x) Z.gtb isort 0%Z (mkT [3;1;4;1;5; 2;7;7;0;7]%Z (from_shape [2;5])) 3 (-1)%Z true true
  = Ok (mkT [5;4;3; 7;7;7]%Z (from_shape [2;3]), mkT [4;2;0; 1;2;4]%Z (from_shape [2;3])).
Proof. vm_compute. reflexivity. Qed.
Example C33_ex_smallest :
  t_topk (fun x => x) Z.gtb isort 0%Z (mkT [9;9;3;1;4;1;5]%Z (mkLayout [5] [1] 2)) 2 0%Z false false
  = Ok (mkT [1;1]%Z (from_shape [2]), mkT [3;1]%Z (from_shape [2])).
Proof. vm_compute. reflexivity. Qed.

(** Along an axis other than the last the kernel reads the storage of the
    original tensor: the maxima of the columns of [[1,2],[3,4]] are 3 and 4, the
    result is 2 and 4. *)
Theorem C33_other_axis_refuted :
  let t := mkT [1;2;3;4]%Z (from_shape [2;2]) in
  exists v ix, t_topk (fun x => x) Z.gtb isort 0%Z t 1 0%Z true true = Ok (v, ix) /\
    elem v [0;0] = Some 2%Z /\ elem t [1;0] = Some 3%Z.
Proof. eexists. eexists. split; [vm_compute; reflexivity|]. split; reflexivity. Qed.
Print Assumptions C33_other_axis_refuted.
(** The same for a transposed tensor and its last axis: rows (1,3) and (2,4). *)
Theorem C33_view_refuted :
  let t := mkT [1;2;3;4]%Z (mkLayout [2;2] [1;2] 0) in
  exists v ix, t_topk (fun x => x) Z.gtb isort 0%Z t 1 1%Z true true = Ok (v, ix) /\
    elem v [0;0] = Some 2%Z /\ elem t [0;0] = Some 1%Z /\ elem t [0;1] = Some 3%Z.
Proof. eexists. eexists. split; [vm_compute; reflexivity|]. repeat split; reflexivity. Qed.
Print Assumptions C33_view_refuted.

(** Integers are compared as single-precision floats: the larger of 16777217 and
    16777216 is reported to be 16777216. *)
Definition f32_of_int (x : Z) : spec_float := binary_normalize 24 128 x 0 false.
Definition f32_gt (a b : spec_float) : bool := match SFcompare a b with Some Gt => true | _ => false end.
Theorem C33_integers_refuted :
  t_topk f32_of_int f32_gt isort 0%Z (mkT [16777217;16777216]%Z (from_shape [2])) 1 0%Z true true
  = Ok (mkT [16777216]%Z (from_shape [1]), mkT [1]%Z (from_shape [1])).
Proof. vm_compute. reflexivity. Qed.
Print Assumptions C33_integers_refuted.
