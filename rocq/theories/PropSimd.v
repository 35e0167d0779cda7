(** C110: the vectorised loops compute what the scalar ones do. *)
From Coq Require Import List Arith Bool Lia ZArith SpecFloat Reals.
From Verif Require Import Base IndexSpec LayoutModel ViewSpec LayoutProofs KernelModel TensorModel KernelProofs ElementwiseProofs ReduceModel ReduceSpec ReduceProofs.
From Verif Require Import NumModel MatGradProofs SimdModel SimdSpec SimdProofs.
Import ListNotations.
Open Scope nat_scope.
Notation xzero := (Fin 0%R).

(** Excluded: elements on which the vector instruction [lane] is not the scalar operation [f], and rank-0 views inside their
    storage (C18). *)
Theorem C110_unary_partial : forall A B (d : A) e w (lane f : A -> B) input out l, env_ok e -> 0 < w ->
  wf_layout l -> offset_read l -> in_bounds (length input) l -> length out = nelem (lshape l) ->
  (forall i x, valid (lshape l) i -> nth_error input (addr l i) = Some x -> lane x = f x) ->
  simd_unary_kernel w lane f input out (unary_metadata l l) = unary_kernel e f input out (unary_metadata l l).
Proof. intros. rewrite (simd_unary_spec d), (unary_kernel_spec A B d); auto. Qed.
Print Assumptions C110_unary_partial.

(** neg is 0 - x in the vector loop: excluded is +0. *)
Theorem C110_neg_partial : forall prec emax e w input out l, env_ok e -> 0 < w ->
  wf_layout l -> offset_read l -> in_bounds (length input) l -> length out = nelem (lshape l) ->
  (forall i x, valid (lshape l) i -> nth_error input (addr l i) = Some x -> x <> S754_zero false) ->
  simd_unary_kernel w (SFsub prec emax (S754_zero false)) SFopp input out (unary_metadata l l) = unary_kernel e SFopp input out (unary_metadata l l).
Proof. intros. apply (C110_unary_partial _ _ S754_nan); auto. intros i x V E. apply neg_lane. eauto. Qed.
Print Assumptions C110_neg_partial.

Theorem C110_binary : forall A C B (d : A) (d' : C) e w (f : A -> C -> B) lhs rhs out la lb s, env_ok e -> 0 < w ->
  wf_layout la -> wf_layout lb -> lshape la = s -> lshape lb = s ->
  in_bounds (length lhs) la -> in_bounds (length rhs) lb -> length out = nelem s ->
  simd_binary_kernel w f f lhs rhs out (binary_metadata la lb la) = binary_kernel e f lhs rhs out (binary_metadata la lb la).
Proof. intros. rewrite (simd_binary_spec d d' w f lhs rhs out la lb s), (binary_kernel_spec A C B d d' e f lhs rhs out la lb s); auto. Qed.
Print Assumptions C110_binary.

(** Any combination that does not depend on order and grouping, on each of the vector units. *)
Theorem C110_reduce : forall A B C (op : B -> B -> B) init (inj : A -> B) ok (fin : nat -> B -> C) (d0 : A) w hz input out l ds keep,
  combines op init ok -> vector_unit op init w hz ->
  wf_layout l -> in_bounds (length input) l -> NoDup ds ->
  Forall (fun d => d < length (lshape l)) ds -> length (lshape l) <= 16 ->
  (forall i x, valid (lshape l) i -> nth_error input (addr l i) = Some x -> ok (inj x)) ->
  length out = nelem (rshape keep ds (lshape l)) ->
  simd_reduce_kernel w hz init (adding op inj) (adding op inj) fin input out (reduce_metadata l ds keep) =
  reduce_kernel init (plain (adding op inj)) fin input out (reduce_metadata l ds keep).
Proof. intros. eapply simd_reduce_ok; eauto. Qed.
Print Assumptions C110_reduce.

(** sum and mean on real numbers *)
Theorem C110_sum_partial : forall (fin : nat -> xr -> xr) w hz input out l ds keep, vector_unit xadd xzero w hz ->
  wf_layout l -> in_bounds (length input) l -> NoDup ds ->
  Forall (fun d => d < length (lshape l)) ds -> length (lshape l) <= 16 -> length out = nelem (rshape keep ds (lshape l)) ->
  simd_reduce_kernel w hz xzero xadd xadd fin input out (reduce_metadata l ds keep) =
  reduce_kernel xzero (plain xadd) fin input out (reduce_metadata l ds keep).
Proof.
  intros. destruct xadd_laws as (L1 & L2 & L3).
  apply (C110_reduce xr xr xr xadd xzero (fun x => x) (fun _ => True) fin xzero); auto. constructor; auto. intros a _. now rewrite L1.
Qed.
Print Assumptions C110_sum_partial.

(** norm on real numbers: the sum of the squares *)
Theorem C110_norm_partial : forall (fin : nat -> xr -> xr) w hz input out l ds keep, vector_unit xadd xzero w hz ->
  wf_layout l -> in_bounds (length input) l -> NoDup ds ->
  Forall (fun d => d < length (lshape l)) ds -> length (lshape l) <= 16 -> length out = nelem (rshape keep ds (lshape l)) ->
  let step b x := xadd b (xmul x x) in
  simd_reduce_kernel w hz xzero step step fin input out (reduce_metadata l ds keep) =
  reduce_kernel xzero (plain step) fin input out (reduce_metadata l ds keep).
Proof.
  intros. destruct xadd_laws as (L1 & L2 & L3).
  apply (C110_reduce xr xr xr xadd xzero (fun x => xmul x x) (fun _ => True) fin xzero); auto. constructor; auto. intros a _. now rewrite L1.
Qed.
Print Assumptions C110_norm_partial.

(** var on real numbers: the sum and the sum of the squares, whatever is computed from them *)
Theorem C110_var_partial : forall (fin : nat -> xr * xr -> xr) w hz input out l ds keep,
  let add2 p q := (xadd (fst p) (fst q), xadd (snd p) (snd q)) in
  vector_unit add2 (xzero, xzero) w hz ->
  wf_layout l -> in_bounds (length input) l -> NoDup ds ->
  Forall (fun d => d < length (lshape l)) ds -> length (lshape l) <= 16 -> length out = nelem (rshape keep ds (lshape l)) ->
  let step b x := (xadd (fst b) x, xadd (snd b) (xmul x x)) in
  simd_reduce_kernel w hz (xzero, xzero) step step fin input out (reduce_metadata l ds keep) =
  reduce_kernel (xzero, xzero) (plain step) fin input out (reduce_metadata l ds keep).
Proof.
  intros fin w hz input out l ds keep add2. intros. destruct xadd_laws as (L1 & L2 & L3).
  apply (C110_reduce xr (xr * xr) xr add2 (xzero, xzero) (fun x => (x, xmul x x)) (fun _ => True) fin xzero); auto.
  constructor; auto; unfold add2; cbn [fst snd].
  - intros. now rewrite !L2.
  - intros [a a'] [b b'] _ _. cbn. now rewrite (L1 a), (L1 a').
  - intros [a a'] _. cbn [fst snd]. now rewrite (L1 a), (L1 a'), !L3.
Qed.
Print Assumptions C110_var_partial.

(** max and min of floats.  Excluded: NaN and -0. *)
Theorem C110_max_partial : forall w hz input out l ds keep, vector_unit (larger f_gt) (S754_infinity true) w hz ->
  wf_layout l -> in_bounds (length input) l -> NoDup ds ->
  Forall (fun d => d < length (lshape l)) ds -> length (lshape l) <= 16 -> length out = nelem (rshape keep ds (lshape l)) ->
  (forall i x, valid (lshape l) i -> nth_error input (addr l i) = Some x -> is_number x) ->
  simd_reduce_kernel w hz (S754_infinity true) (larger f_gt) (larger f_gt) (fun _ b => b) input out (reduce_metadata l ds keep) =
  reduce_kernel (S754_infinity true) (plain (larger f_gt)) (fun _ b => b) input out (reduce_metadata l ds keep).
Proof. intros. apply (C110_reduce _ _ _ (larger f_gt) (S754_infinity true) (fun x => x) is_number (fun _ b => b) S754_nan); auto using max_combines. Qed.
Print Assumptions C110_max_partial.
Theorem C110_min_partial : forall w hz input out l ds keep, let smaller := larger (fun a b => f_gt b a) in
  vector_unit smaller (S754_infinity false) w hz ->
  wf_layout l -> in_bounds (length input) l -> NoDup ds ->
  Forall (fun d => d < length (lshape l)) ds -> length (lshape l) <= 16 -> length out = nelem (rshape keep ds (lshape l)) ->
  (forall i x, valid (lshape l) i -> nth_error input (addr l i) = Some x -> is_number x) ->
  simd_reduce_kernel w hz (S754_infinity false) smaller smaller (fun _ b => b) input out (reduce_metadata l ds keep) =
  reduce_kernel (S754_infinity false) (plain smaller) (fun _ b => b) input out (reduce_metadata l ds keep).
Proof. intros. apply (C110_reduce _ _ _ smaller (S754_infinity false) (fun x => x) is_number (fun _ b => b) S754_nan); auto using min_combines. Qed.
Print Assumptions C110_min_partial.

(** The negative of +0 is +0 in the vector lanes (SSE2), -0 in the remainder and in the scalar loop. *)
Definition neg_f32 := simd_unary_kernel 4 (SFsub 24 128 (S754_zero false)) SFopp.
Theorem C110_neg_refuted :
  let z := S754_zero false in let nz := S754_zero true in let l := from_shape [5] in
  neg_f32 [z; z; z; z; z] [z; z; z; z; z] (unary_metadata l l) = Some [z; z; z; z; nz] /\
  unary_kernel e1 SFopp [z; z; z; z; z] [z; z; z; z; z] (unary_metadata l l) = Some [nz; nz; nz; nz; nz].
Proof. split; reflexivity. Qed.
Print Assumptions C110_neg_refuted.

(** Single precision: 2^24 and seven ones.  The scalar loop gives 2^24, as for the elements of a transposed view; four
    lanes give 2^24 + 6. *)
Definition f32 (z : Z) : spec_float := binary_normalize 24 128 z 0 false.
Definition add32 := SFadd 24 128.
Definition sum_sse := simd_reduce_kernel 4 (h_sse_f32 add32 (f32 0)) (f32 0) add32 add32 (fun _ b => b).
Theorem C110_rounding_refuted :
  let l := from_shape [8] in let x := map f32 [16777216; 1; 1; 1; 1; 1; 1; 1]%Z in
  sum_sse x [f32 0] (reduce_metadata l [0] false) = Some [f32 16777222] /\
  reduce_kernel (f32 0) (plain add32) (fun _ b => b) x [f32 0] (reduce_metadata l [0] false) = Some [f32 16777216].
Proof. split; vm_compute; reflexivity. Qed.
Print Assumptions C110_rounding_refuted.

(** 9, 2, NaN, 3: four lanes give 9, the scalar loop gives 3. *)
Definition max_sse := simd_reduce_kernel 4 (h_sse_f32 (larger f_gt) (S754_infinity true)) (S754_infinity true) (larger f_gt) (larger f_gt) (fun _ b => b).
Theorem C110_nan_refuted :
  let l := from_shape [4] in let x := [f32 9; f32 2; S754_nan; f32 3] in
  max_sse x [f32 0] (reduce_metadata l [0] false) = Some [f32 9] /\
  reduce_kernel (S754_infinity true) (plain (larger f_gt)) (fun _ b => b) x [f32 0] (reduce_metadata l [0] false) = Some [f32 3].
Proof. split; vm_compute; reflexivity. Qed.
Print Assumptions C110_nan_refuted.

Example C110_sum_ex : (* rows of nine elements: two blocks and a remainder, starting inside the storage *)
  sum_sse (map f32 [7; 1; 2; 3; 4; 5; 6; 7; 8; 9; 10; 20; 30; 40; 50; 60; 70; 80; 90]%Z) [f32 0; f32 0] (reduce_metadata (mkLayout [2; 9] [9; 1] 1) [1] false)
  = Some [f32 45; f32 450].
Proof. vm_compute. reflexivity. Qed.
Example C110_max_ex : max_sse (map f32 [-3; -1; -4; -1; -5; -2]%Z) [f32 0] (reduce_metadata (from_shape [1; 6]) [1] true) = Some [f32 (-1)].
Proof. vm_compute. reflexivity. Qed.
Example C110_neg_ex : let l := from_shape [5] in
  neg_f32 (map f32 [1; -2; 3; 4; 5]%Z) (map f32 [0; 0; 0; 0; 0]%Z) (unary_metadata l l) = Some (map f32 [-1; 2; -3; -4; -5]%Z).
Proof. vm_compute. reflexivity. Qed.
Example C110_binary_ex : let l := from_shape [5] in
  simd_binary_kernel 2 Z.sub Z.sub [9; 1; 2; 3; 4; 5]%Z [1; 1; 1; 2; 2]%Z [0; 0; 0; 0; 0]%Z (binary_metadata (mkLayout [5] [1] 1) l (mkLayout [5] [1] 1)) = Some [0; 1; 2; 2; 3]%Z.
Proof. vm_compute. reflexivity. Qed.
