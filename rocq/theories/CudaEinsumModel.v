(** einsum on CUDA.  crates/hodu_cuda_kernels/kernels/ops_einsum.cu, launched by
    src/kernels/ops_einsum.rs:24-68 and be_cuda/storage/ops_einsum.rs:11-136.  The equation,
    the metadata and the tensor operation in front are those of EinsumModel.v.

    Simplifications: as in LaunchModel.v and EinsumModel.v.  An output buffer shorter than
    metadata[0] counts as undefined behaviour (the thread of its end writes outside). *)
From Coq Require Import List Arith Bool.
From Verif Require Import Base IndexSpec LayoutModel KernelModel TensorModel EinsumModel LaunchModel CudaMoveModel.
Import ListNotations.

Section Kernel.
  Context {A B : Type}.
  Variable sched : nat -> list nat.
  (** [up], [down]: TO_FLOAT and FROM_FLOAT (L130-182), the identity in L76-128 *)
  Variables (up : A -> B) (down : B -> A) (zero one : B) (add mul : B -> B -> B).

  (** L31-74 [parse_einsum_metadata] into arrays of 16 (4 for the inputs), then L76-128
      [EINSUM_OP] and L130-182 [EINSUM_OP_FLOAT].  Unused input slots hold the first input
      (ops_einsum.rs:54-61); no section refers to them. *)
  Definition cuda_einsum (ins : list (list A)) (out : list (option A)) (md : list nat) : option (list A) :=
    obind (read_n 5 md) (fun '(h, md) =>
    let els := nth 0 h 0 in let ni := nth 1 h 0 in let nt := nth 2 h 0 in
    let nc := nth 3 h 0 in let no := nth 4 h 0 in
    if negb ((ni <=? 4) && (nt <=? 16) && (nc <=? 16) && (no <=? 16)) then None else
    obind (read_n no md) (fun '(oshape, md) =>
    obind (read_sections ni md) (fun '(secs, md) =>
    obind (read_n nc md) (fun '(cids, md) =>
    obind (read_n nt md) (fun '(isz, md) =>
    obind (read_n no md) (fun '(oids, _) =>
    if negb (forallb (fun i => i <? nt) cids) then None else
    if length out <? els then None else
    let csz := map (fun i => nth i isz 0) cids in
    once_each sched els (fun tid =>
      obind (decode (rev (combine oids oshape)) tid (fun _ => 0)) (fun iv =>
      obind (contract up one add mul secs ins (rev (combine cids csz)) (seq 0 (nelem csz)) iv zero) (fun s =>
      Some (down s)))) out)))))).

  (** tensor/ops/einsum.rs:42-140 with be_cuda/storage/ops_einsum.rs:11-136 *)
  Definition cuda_t_einsum (eq : list nat) (ts : list (tensor A)) : outcome (tensor A) :=
    if (length ts =? 0) || (4 <? length ts) then Err EInternal
    else
      do p <- parse eq (map (fun t => lshape (tlay t)) ts) ;
      do st <- ub (cuda_einsum (map tstore ts) (repeat None (nelem (out_shape p)))
                     (einsum_metadata p (map tlay (tl ts)))) ;
      Ok (mkT st (from_shape (out_shape p))).
End Kernel.
