(** C143: filling with a constant, on the CPU and on CUDA. *)
From Coq Require Import List Arith ZArith Bool Lia.
From Verif Require Import Base IndexSpec LayoutModel ViewSpec LayoutProofs KernelModel KernelProofs TensorModel TensorSpec TensorProofs
  ScanModel SortModel EncodeModel SelectModel.
From Verif Require Import TileModel TileProofs4 LaunchModel LaunchSpec LaunchProofs LaunchProofs2 CudaIndexProofs2 FillModel FillProofs.
Import ListNotations.
Local Open Scope nat_scope.

(** the cells of the view hold the value, all other cells are as before *)
Definition filled {A} (st st' : list A) (l : layout) (v : A) : Prop :=
  length st' = length st /\
  (forall i, valid (lshape l) i -> nth_error st' (addr l i) = Some v) /\
  (forall q, (forall i, valid (lshape l) i -> addr l i <> q) -> nth_error st' q = nth_error st q).
Lemma fills_filled : forall A (st : list A) l v step, fills (length st) v step (addressed l) ->
  exists st', step st = Some st' /\ filled st st' l v.
Proof.
  intros A st l v step F. destruct (F st eq_refl) as (o & E & L & _ & R & U). exists o. split; [exact E|].
  split; [exact L|]. split; [intros i V; apply R; now exists i|]. intros q Q. apply U. intros (i & V & H). exact (Q i V H).
Qed.

(** On the CPU, for every platform: views of positive rank, or scalars at offset 0.  Missing:
    scalar views at an offset (refuted below). *)
Theorem C143_cpu_partial : forall A e (st : list A) l v d, env_ok e -> good (mkT st l) ->
  (length (lshape l) = 0 -> loffset l = 0) ->
  exists st', storage_const_set (OnCpu e) d d st v l = Ok st' /\ filled st st' l v.
Proof.
  intros A e st l v d EO G Z0. destruct (fills_filled A st l v _ (cpu_const_set_spec e st l v EO G Z0)) as (st' & E & F).
  exists st'. split; [|exact F]. unfold storage_const_set. now rewrite Nat.eqb_refl, E.
Qed.
Print Assumptions C143_cpu_partial.
Example C143_cpu_example :
  env_ok (seq_env 4 1) /\ good (mkT (seq 0 8) (mkLayout [2; 2] [4; 1] 1)) /\
  storage_const_set (OnCpu (seq_env 4 1)) F32 F32 (seq 0 8) 9 (mkLayout [2; 2] [4; 1] 1) = Ok [0; 9; 9; 3; 4; 9; 9; 7] /\
  storage_const_set (OnCpu (seq_env 4 1)) F32 F32 (seq 0 8) 9 (mkLayout [5] [1] 2) = Ok [0; 1; 9; 9; 9; 9; 9; 7].
Proof.
  split; [apply seq_env_ok; lia|]. split; [|split; reflexivity]. split; [reflexivity|].
  intros [|a [|b [|c i]]] V; cbn in V; try tauto. destruct V as (V1 & V2 & _). unfold addr. cbn. lia.
Qed.

(** A scalar view at an offset: the kernel takes 0 for its offset and writes the first cell
    of the storage. *)
Theorem C143_scalar_refuted : forall A e (st : list A) v d o, env_ok e -> 0 < o < length st ->
  good (mkT st (mkLayout [] [] o)) /\
  exists st', storage_const_set (OnCpu e) d d st v (mkLayout [] [] o) = Ok st' /\
    nth_error st' 0 = Some v /\ nth_error st' o = nth_error st o.
Proof.
  intros A e st v d o EO OL. split.
  - split; [reflexivity|]. intros [|x i] V; [|destruct V]. unfold addr. cbn [loffset lstrides dot tlay tstore]. lia.
  - destruct (C143_cpu_partial A e st (mkLayout [] [] 0) v d EO) as (st' & E & L & F & U).
    + split; [reflexivity|]. intros [|x i] V; [|destruct V]. unfold addr. cbn [loffset lstrides dot tlay tstore]. lia.
    + reflexivity.
    + exists st'. split; [exact E|]. split; [exact (F [] I)|]. apply U. intros [|x i] V; [|destruct V].
      unfold addr. cbn [loffset lstrides dot]. lia.
Qed.
Print Assumptions C143_scalar_refuted.
Example C143_scalar_example :
  storage_const_set (OnCpu (seq_env 4 1)) F32 F32 [1; 2; 3] 9 (mkLayout [] [] 2) = Ok [9; 2; 3].
Proof. reflexivity. Qed.

(** On CUDA, for every schedule: scalars too; a view that is not contiguous must end below
    2^32 cells.  Missing: those that do not (refuted below). *)
Theorem C143_cuda_partial : forall A launch (st : list A) l v d, ending launch -> good (mkT st l) ->
  (Z.of_nat (nelem (lshape l)) <= 2 ^ 32 - 256)%Z ->
  c_is_contiguous (lshape l) (lstrides l) = true \/ (forall i, valid (lshape l) i -> (Z.of_nat (addr l i) < 2 ^ 32)%Z) ->
  exists st', storage_const_set (OnCuda launch) d d st v l = Ok st' /\ filled st st' l v.
Proof.
  intros A launch st l v d EN G C N. destruct (fills_filled A st l v _ (cuda_const_set_spec launch st l v EN G C N)) as (st' & E & F).
  exists st'. split; [|exact F]. unfold storage_const_set. now rewrite Nat.eqb_refl, E.
Qed.
Print Assumptions C143_cuda_partial.
Example C143_cuda_example :
  ending swift /\
  storage_const_set (OnCuda swift) F32 F32 (seq 0 8) 9 (mkLayout [2; 2] [4; 1] 1) = Ok [0; 9; 9; 3; 4; 9; 9; 7] /\
  storage_const_set (OnCuda swift) F32 F32 (seq 0 8) 9 (mkLayout [5] [1] 2) = Ok [0; 1; 9; 9; 9; 9; 9; 7] /\
  storage_const_set (OnCuda swift) F32 F32 [1; 2; 3] 9 (mkLayout [] [] 2) = Ok [1; 2; 9].
Proof. split; [exact swift_ending|]. split; [|split]; vm_compute; reflexivity. Qed.

(** The address of a view that is not contiguous is cut to 32 bits: at offset 2^32 the
    cells 0 and 2 are written, and those of the view are not. *)
Definition far : nat := Z.to_nat (2 ^ 32).
Theorem C143_far_refuted : forall A launch (st : list A) v d, ending launch -> length st = far + 3 ->
  good (mkT st (mkLayout [2] [2] far)) /\
  exists st', storage_const_set (OnCuda launch) d d st v (mkLayout [2] [2] far) = Ok st' /\
    nth_error st' 0 = Some v /\ nth_error st' 2 = Some v /\
    nth_error st' far = nth_error st far /\ nth_error st' (far + 2) = nth_error st (far + 2).
Proof.
  intros A launch st v d EN L.
  assert (U : forall q, (Z.of_nat q < 2 ^ 32)%Z -> as_u32 (far + q) = q).
  { intros q Q. unfold as_u32, far. rewrite Nat2Z.inj_add, Z2Nat.id by lia.
    rewrite <- (Z.mul_1_l (2 ^ 32)) at 1. rewrite Z.add_comm, Z_mod_plus_full, Z.mod_small by lia. lia. }
  assert (U0 : as_u32 (far + 0) = 0) by (apply U; lia). assert (U2 : as_u32 (far + 2) = 2) by (apply U; lia). clear U.
  assert (B : 2 < far) by (unfold far; lia).
  generalize dependent far. intros far L U0 U2 B. split.
  - split; [reflexivity|]. intros [|a [|b i]] V; cbn in V; try tauto. unfold addr. cbn [loffset lstrides dot tlay tstore]. lia.
  - destruct (unary_md (mkLayout [2] [2] far) eq_refl) as (E0 & E1 & E2 & E3 & E4).
    assert (C2 : (Z.of_nat 2 <= 2 ^ 32 - 256)%Z) by lia.
    pose proof (short_each 2 (launch 2) C2 (EN 2 C2)) as EA.
    unfold storage_const_set. rewrite Nat.eqb_refl, fill_md by reflexivity. unfold cuda_const_set.
    rewrite E0. cbn [obind]. rewrite E1. cbn [obind]. rewrite E2. cbn [obind]. rewrite E3. cbn [obind]. rewrite E4. cbn [obind].
    clear E0 E1 E2 E3 E4. cbn [lshape lstrides loffset]. change (nelem [2]) with 2. change (c_is_contiguous [2] [2]) with false. cbv iota.
    set (ids := log (execute Short 2 (launch 2))) in *.
    destruct (fills_loop (length st) v nat (fun i (o : list A) => let? p := let? q := strided32 i [2] [2] in Some (as_u32 (far + q)) in c_store o p v)
      (fun i q => i * 2 = q) ids) with (out := st) as (o & E & LO & _ & R & N).
    + intros k I out LO. apply EA in I.
      assert ((let? q := strided32 k [2] [2] in Some (as_u32 (far + q))) = Some (k * 2)) as ->.
      { destruct k as [|[|k]]; [|..]; [| |lia].
        - change (strided32 0 [2] [2]) with (Some 0). cbn [obind]. now rewrite U0.
        - change (strided32 1 [2] [2]) with (Some 2). cbn [obind]. now rewrite U2. }
      cbn [obind]. apply fills_store; [lia|exact LO].
    + reflexivity.
    + rewrite E. exists o. split; [reflexivity|]. split; [apply R; exists 0; split; [apply EA; lia|reflexivity]|].
      split; [apply R; exists 1; split; [apply EA; lia|reflexivity]|].
      split; apply N; intros (k & I & H); apply EA in I; lia.
Qed.
Print Assumptions C143_far_refuted.

(** A scalar of another type is an error and writes nothing. *)
Theorem C143_dtype : forall A w d d' (st : list A) v l, d <> d' -> storage_const_set w d d' st v l = Err EDType.
Proof.
  intros A w d d' st v l D. unfold storage_const_set. destruct (Nat.eqb_spec (tag d) (tag d')) as [E|]; [|reflexivity].
  exfalso. apply D. destruct d, d'; try reflexivity; discriminate E.
Qed.
Print Assumptions C143_dtype.
Example C143_dtype_example : storage_const_set (OnCuda swift) F32 I32 [1; 2] 9 (from_shape [2]) = Err EDType.
Proof. apply C143_dtype. discriminate. Qed.

(** zeros, ones and full: every element is the value, for every shape, on the CPU and on
    CUDA; the zeros that were there first do not matter. *)
Definition runs (w : filler) (n : nat) : Prop :=
  match w with OnCpu e => env_ok e | OnCuda launch => ending launch /\ (Z.of_nat n <= 2 ^ 32 - 256)%Z end.
Theorem C143_full : forall A w (zero : A) d s v, runs w (nelem s) ->
  exists r, t_filled w zero d s v = Ok r /\ r = t_full s v /\ good r /\ tshape r = s /\
    forall i, valid s i -> elem r i = Some v.
Proof.
  intros A w zero d s v R. unfold t_filled. change (shape_size s) with (nelem s).
  assert (G : good (mkT (repeat zero (nelem s)) (from_shape s))) by (apply from_shape_good; now rewrite repeat_length).
  assert (S' : exists st', storage_const_set w d d (repeat zero (nelem s)) v (from_shape s) = Ok st' /\ filled (repeat zero (nelem s)) st' (from_shape s) v).
  { destruct w as [e|launch].
    - apply C143_cpu_partial; [exact R|exact G|reflexivity].
    - destruct R as [EN C]. apply C143_cuda_partial; [exact EN|exact G|exact C|].
      right. intros i V. change (valid s i) in V. rewrite addr_from_shape by now apply valid_length.
      pose proof (ravel_lt _ _ V). lia. }
  destruct S' as (st' & E & L & F & _). rewrite repeat_length in L.
  assert (st' = repeat v (nelem s)) as ->.
  { apply list_ext. intro q. destruct (Nat.lt_ge_cases q (nelem s)) as [Q|Q].
    - pose proof (F (unravel s q) (unravel_valid s q Q)) as H. rewrite addr_from_shape in H by apply unravel_length.
      rewrite ravel_unravel in H by exact Q. rewrite H. symmetry. now apply nth_error_repeat.
    - rewrite !(proj2 (nth_error_None _ _)); [reflexivity|rewrite repeat_length; lia|lia]. }
  rewrite E. cbn [bind]. eexists. split; [reflexivity|]. split; [reflexivity|]. split; [apply from_shape_good; now rewrite repeat_length|].
  split; [reflexivity|]. intros i V. unfold elem. cbn [tlay tstore]. rewrite addr_from_shape by now apply valid_length.
  apply nth_error_repeat. now apply ravel_lt.
Qed.
Print Assumptions C143_full.
Theorem C143_zeros : forall A (zero : A) s, good (t_zeros zero s) /\ tshape (t_zeros zero s) = s /\
  forall i, valid s i -> elem (t_zeros zero s) i = Some zero.
Proof.
  intros A zero s. unfold t_zeros. change (shape_size s) with (nelem s). split; [apply from_shape_good; now rewrite repeat_length|].
  split; [reflexivity|]. intros i V. unfold elem. cbn [tlay tstore]. rewrite addr_from_shape by now apply valid_length.
  apply nth_error_repeat. now apply ravel_lt.
Qed.
Print Assumptions C143_zeros.
Example C143_full_example :
  runs (OnCuda swift) 6 /\ t_filled (OnCuda swift) 0 F32 [2; 3] 7 = Ok (mkT [7; 7; 7; 7; 7; 7] (mkLayout [2; 3] [3; 1] 0)) /\
  runs (OnCpu (seq_env 4 1)) 6 /\ t_filled (OnCpu (seq_env 4 1)) 0 F32 [2; 3] 7 = Ok (mkT [7; 7; 7; 7; 7; 7] (mkLayout [2; 3] [3; 1] 0)) /\
  t_filled (OnCpu (seq_env 4 1)) 0 F32 [] 7 = Ok (mkT [7] (mkLayout [] [] 0)).
Proof.
  split; [split; [exact swift_ending|now vm_compute]|]. split; [vm_compute; reflexivity|]. split; [apply seq_env_ok; lia|]. split; reflexivity.
Qed.
