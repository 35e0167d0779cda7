(** Property C135: indexed reads and writes on CUDA tensors. *)
From Coq Require Import List Arith ZArith Bool Lia.
From Verif Require Import Base IndexSpec LayoutModel ViewSpec LayoutProofs KernelModel TensorModel TensorSpec KernelProofs TensorProofs.
From Verif Require Import ReduceModel ScanModel MoveModel ReduceProofs MoveProofs MoveProofs2 MoveProofs3 IndexModel IndexProofs IndexProofs2.
From Verif Require Import TileSpec LaunchModel LaunchSpec LaunchProofs LaunchProofs2 CudaIndexModel CudaIndexProofs CudaIndexProofs2.
Import ListNotations.

(** index_select has at [i] the element whose coordinate along the axis is named by
    the index, under every schedule, when every index names one. *)
Theorem C135_select_partial : forall A (d0 : A) sched (t : tensor A) a (idx : tensor Z) n,
  ending sched -> good t -> good idx -> plain_layout idx -> axis_ok (length (tshape t)) a ->
  let d := axis_of (length (tshape t)) a in
  nth_error (tshape t) d = Some n -> length (tshape t) <= 16 ->
  (Z.of_nat (nelem (upd (tshape t) d (nelem (tshape idx)))) <= 2 ^ 32 - 256)%Z ->
  (forall j ix, valid (tshape idx) j -> elem idx j = Some ix -> exists k, names n ix k) ->
  exists r, cuda_t_index_select sched t a idx = Ok r /\ good r /\
    tlay r = from_shape (upd (tshape t) d (nelem (tshape idx))) /\
    forall i ix k, valid (tshape r) i -> elem idx (unravel (tshape idx) (nth d i 0)) = Some ix -> names n ix k ->
      elem r i = elem t (upd i d k).
Proof.
  intros A d0 sched t a idx n E G GI PI AX d SN R16 SZ RG.
  destruct (t_index_select_spec A d0 d0 d0 t a idx n G GI PI AX SN) as (r & R & GR & LR & SP).
  exists r. split; [|split; [exact GR|split; [exact LR|]]].
  - exact (t_select_same A d0 d0 sched t a idx n r E G GI PI AX SN R16 SZ RG R).
  - intros i ix k V IX. apply (SP i ix V IX).
Qed.
Print Assumptions C135_select_partial.

(** gather as on the CPU (C31), out of range indices included. *)
Theorem C135_gather_partial : forall A (zero d0 : A) sched (t : tensor A) a (idx : tensor Z) n,
  ending sched -> good t -> good idx -> plain_layout idx -> axis_ok (length (tshape t)) a ->
  let d := axis_of (length (tshape t)) a in
  nth_error (tshape t) d = Some n -> length (tshape idx) = length (tshape t) -> length (tshape t) <= 16 ->
  (forall k x y, k <> d -> nth_error (tshape idx) k = Some x -> nth_error (tshape t) k = Some y -> x <= y) ->
  (Z.of_nat (nelem (tshape idx)) <= 2 ^ 32 - 256)%Z ->
  exists r, cuda_t_gather zero sched t a idx = Ok r /\ good r /\ tshape r = tshape idx /\
    forall i ix, elem idx i = Some ix -> valid (tshape idx) i ->
      (forall k, names n ix k -> elem r i = elem t (upd i d k)) /\
      ((forall k, ~ names n ix k) -> elem r i = Some zero).
Proof.
  intros A zero d0 sched t a idx n E G GI PI AX d SN LI R16 LE SZ.
  destruct (t_gather_spec A zero d0 d0 t a idx n G GI PI AX SN LI LE) as (r & R & GR & SR & SP).
  exists r. split; [|split; [exact GR|split; [exact SR|exact SP]]].
  exact (t_gather_same A zero d0 sched t a idx r E R16 SZ R).
Qed.
Print Assumptions C135_gather_partial.

(** scatter: a position that exactly one source element belongs to gets it, under every schedule; ... *)
Theorem C135_scatter_partial : forall A sched (t : tensor A) a (idx : tensor Z) (src : tensor A) n ixat val,
  ending sched -> good t -> good idx -> good src -> plain_layout t -> axis_ok (length (tshape t)) a ->
  let d := axis_of (length (tshape t)) a in
  nth_error (tshape t) d = Some n -> length (tshape t) <= 16 ->
  length (tshape idx) = length (tshape t) -> length (tshape src) = length (tshape t) ->
  (forall k x y, k <> d -> nth_error (tshape src) k = Some x -> nth_error (tshape t) k = Some y -> x <= y) ->
  (forall j, valid (tshape src) j -> elem idx j = Some (ixat j)) ->
  (forall j, valid (tshape src) j -> elem src j = Some (val j)) ->
  (Z.of_nat (nelem (tshape src)) <= 2 ^ 32 - 256)%Z ->
  exists r, cuda_t_scatter sched Scatter t a idx src = Ok r /\ tlay r = tlay t /\
    forall i j, valid (tshape t) i -> valid (tshape src) j -> (exists k, names n (ixat j) k /\ i = upd j d k) ->
      (forall j', valid (tshape src) j' -> (exists k, names n (ixat j') k /\ i = upd j' d k) -> j' = j) ->
      elem r i = Some (Some (val j)).
Proof.
  intros A sched t a idx src n ixat val E G GI GS PL AX d SN R16 LI LS LE IX VA SZ.
  destruct (cuda_t_scatter_spec A sched Scatter t a idx src n ixat val E G GI GS PL AX SN R16 LI LS LE IX VA SZ) as (r & R & LR & SP).
  exists r. split; [exact R|]. split; [exact LR|]. intros i j V VJ LJ U.
  destruct (SP i V) as [_ S2]. destruct S2 as (j' & VJ' & LJ' & EJ); [now exists j|].
  rewrite <- (U j' VJ' LJ'). exact EJ.
Qed.
Print Assumptions C135_scatter_partial.

(** ... of several, it gets one. *)
Theorem C135_scatter_some : forall A sched op (t : tensor A) a (idx : tensor Z) (src : tensor A) n ixat val,
  ending sched -> good t -> good idx -> good src -> plain_layout t -> axis_ok (length (tshape t)) a ->
  let d := axis_of (length (tshape t)) a in
  nth_error (tshape t) d = Some n -> length (tshape t) <= 16 ->
  length (tshape idx) = length (tshape t) -> length (tshape src) = length (tshape t) ->
  (forall k x y, k <> d -> nth_error (tshape src) k = Some x -> nth_error (tshape t) k = Some y -> x <= y) ->
  (forall j, valid (tshape src) j -> elem idx j = Some (ixat j)) ->
  (forall j, valid (tshape src) j -> elem src j = Some (val j)) ->
  (Z.of_nat (nelem (tshape src)) <= 2 ^ 32 - 256)%Z ->
  exists r, cuda_t_scatter sched op t a idx src = Ok r /\
    forall i, valid (tshape t) i -> (exists j, valid (tshape src) j /\ exists k, names n (ixat j) k /\ i = upd j d k) ->
      exists j, valid (tshape src) j /\ (exists k, names n (ixat j) k /\ i = upd j d k) /\ elem r i = Some (Some (val j)).
Proof.
  intros A sched op t a idx src n ixat val E G GI GS PL AX d SN R16 LI LS LE IX VA SZ.
  destruct (cuda_t_scatter_spec A sched op t a idx src n ixat val E G GI GS PL AX SN R16 LI LS LE IX VA SZ) as (r & R & LR & SP).
  exists r. split; [exact R|]. intros i V. exact (proj2 (SP i V)).
Qed.
Print Assumptions C135_scatter_some.

(** C135 is false of every position no source element belongs to: nothing determines it,
    under any schedule and for all four operations, while it should keep the
    element of the input. *)
Theorem C135_scatter_rest_refuted : forall A sched op (t : tensor A) a (idx : tensor Z) (src : tensor A) n ixat val,
  ending sched -> good t -> good idx -> good src -> plain_layout t -> axis_ok (length (tshape t)) a ->
  let d := axis_of (length (tshape t)) a in
  nth_error (tshape t) d = Some n -> length (tshape t) <= 16 ->
  length (tshape idx) = length (tshape t) -> length (tshape src) = length (tshape t) ->
  (forall k x y, k <> d -> nth_error (tshape src) k = Some x -> nth_error (tshape t) k = Some y -> x <= y) ->
  (forall j, valid (tshape src) j -> elem idx j = Some (ixat j)) ->
  (forall j, valid (tshape src) j -> elem src j = Some (val j)) ->
  (Z.of_nat (nelem (tshape src)) <= 2 ^ 32 - 256)%Z ->
  exists r, cuda_t_scatter sched op t a idx src = Ok r /\
    forall i, valid (tshape t) i -> (forall j, valid (tshape src) j -> ~ exists k, names n (ixat j) k /\ i = upd j d k) ->
      elem r i = Some None.
Proof.
  intros A sched op t a idx src n ixat val E G GI GS PL AX d SN R16 LI LS LE IX VA SZ.
  destruct (cuda_t_scatter_spec A sched op t a idx src n ixat val E G GI GS PL AX SN R16 LI LS LE IX VA SZ) as (r & R & LR & SP).
  exists r. split; [exact R|]. intros i V. exact (proj1 (SP i V)).
Qed.
Print Assumptions C135_scatter_rest_refuted.

(** [7 8 9] with 10 and 20 put at position 1: the schedule decides. *)
Definition three : tensor Z := mkT [7; 8; 9]%Z (from_shape [3]).
Definition twice : tensor Z := mkT [1; 1]%Z (from_shape [2]).
Definition ten_twenty : tensor Z := mkT [10; 20]%Z (from_shape [2]).
Definition backwards (n : nat) : list nat := [1; 0] ++ swift n.

Theorem C135_scatter_race_refuted :
  ending swift /\ ending backwards /\
  cuda_t_scatter swift Scatter three 0 twice ten_twenty = Ok (mkT [None; Some 20; None]%Z (from_shape [3])) /\
  cuda_t_scatter backwards Scatter three 0 twice ten_twenty = Ok (mkT [None; Some 10; None]%Z (from_shape [3])) /\
  cuda_t_scatter backwards ScatterAdd three 0 twice ten_twenty = Ok (mkT [None; Some 10; None]%Z (from_shape [3])).
Proof.
  split; [exact swift_ending|]. split; [exact (ending_before swift [1; 0] swift_ending)|].
  split; [vm_compute; reflexivity|]. split; vm_compute; reflexivity.
Qed.
Print Assumptions C135_scatter_race_refuted.

(** C135 is false of slices: the output is written at the offset of the input. *)
Definition tail : tensor Z := mkT [1; 2; 3; 7; 8; 9]%Z (mkLayout [3] [1] 3).
Theorem C135_scatter_offset_refuted :
  good tail /\ cuda_t_scatter swift Scatter tail 0 twice ten_twenty = Panic.
Proof.
  split.
  - split; [reflexivity|]. intros i V. cbn in V. destruct i as [|a [|]]; cbn in *; lia.
  - vm_compute. reflexivity.
Qed.
Print Assumptions C135_scatter_offset_refuted.

(** C135 is false of indices out of range: index_select reads another row of the input
    where the CPU gives 0. *)
Definition two_rows : tensor Z := mkT [1; 2; 3; 4; 5; 6]%Z (from_shape [2; 3]).
Theorem C135_select_range_refuted :
  cuda_t_index_select swift two_rows 1 (mkT [0; 3]%Z (from_shape [2])) = Panic /\
  cuda_t_index_select swift two_rows 0 (mkT [1; 2]%Z (from_shape [2])) = Panic /\
  cuda_t_index_select swift (mkT [1; 2; 3; 4; 5; 6]%Z (mkLayout [1; 2] [3; 1] 0)) 1 (mkT [0; 4]%Z (from_shape [2]))
    = Ok (mkT [1; 5]%Z (from_shape [1; 2])) /\
  t_index_select 0%Z 0%Z (mkT [1; 2; 3; 4; 5; 6]%Z (mkLayout [1; 2] [3; 1] 0)) 1 (mkT [0; 4]%Z (from_shape [2]))
    = Ok (mkT [1; 0]%Z (from_shape [1; 2])).
Proof. split; [|split; [|split]]; vm_compute; reflexivity. Qed.
Print Assumptions C135_select_range_refuted.

(** C135 is false of index_put along the only axis, whatever is put where: the last
    element is read outside the input. *)
Theorem C135_put_refuted : forall A sched (t v : tensor A) (idx : tensor Z) n k, ending sched ->
  tlay t = from_shape [n] -> tlay v = from_shape [k] -> length (tstore t) = n ->
  0 < n -> 0 < k -> (Z.of_nat n <= 2 ^ 32 - 256)%Z ->
  cuda_t_index_put sched t 0 idx v = Panic.
Proof. exact put_line. Qed.
Print Assumptions C135_put_refuted.

(** C135 is false of tensors with more than 16 axes. *)
Theorem C135_rank_refuted :
  cuda_t_gather 0%Z swift (mkT [5]%Z (from_shape (repeat 1 17))) 0 (mkT [0]%Z (from_shape (repeat 1 17))) = Panic /\
  t_gather 0%Z 0%Z (mkT [5]%Z (from_shape (repeat 1 17))) 0 (mkT [0]%Z (from_shape (repeat 1 17)))
    = Ok (mkT [5]%Z (from_shape (repeat 1 17))).
Proof. split; vm_compute; reflexivity. Qed.
Print Assumptions C135_rank_refuted.

(** A column of the transpose selected twice, gathered, and every position of a line put once. *)
Example C135_ex :
  cuda_t_index_select swift (mkT [1; 2; 3; 4; 5; 6]%Z (mkLayout [3; 2] [1; 3] 0)) 1 (mkT [1; 0; -1]%Z (from_shape [3]))
    = Ok (mkT [4; 1; 4; 5; 2; 5; 6; 3; 6]%Z (from_shape [3; 3])) /\
  cuda_t_gather 0%Z backwards two_rows 1 (mkT [2; -3; 7; 1]%Z (from_shape [2; 2]))
    = Ok (mkT [3; 1; 0; 5]%Z (from_shape [2; 2])) /\
  cuda_t_scatter backwards Scatter three 0 (mkT [2; 0; -2]%Z (from_shape [3])) (mkT [10; 20; 30]%Z (from_shape [3]))
    = Ok (mkT [Some 20; Some 30; Some 10]%Z (from_shape [3])).
Proof. split; [|split]; vm_compute; reflexivity. Qed.
Example C135_hyps : ending backwards /\ good three /\ plain_layout three /\
  (forall j ix, valid [3] j -> elem (mkT [2; 0; -2]%Z (from_shape [3])) j = Some ix -> exists k, names 3 ix k).
Proof.
  split; [exact (ending_before swift [1; 0] swift_ending)|]. split; [apply from_shape_good; reflexivity|].
  split; [split; reflexivity|]. intros j ix V H. destruct j as [|a [|]]; cbn in V; try (destruct V; lia); try tauto.
  destruct V as [V _]. destruct a as [|[|[|a]]]; try lia; cbn in H; injection H as <-; [exists 2|exists 0|exists 1]; unfold names; lia.
Qed.
