(** Moving a tensor to another device, and to the type it already has:
    Tensor::to_device and Tensor::to_dtype, tensor/ops/cast_memory.rs L11-54.

    Simplifications: copying a whole buffer between host and device
    (CudaStorage::from_cpu_storage, to_cpu_storage, be_cuda/storage.rs:175-203, 245-269,
    and the same of Metal) succeeds and keeps it as it is; the kernel of Metal
    (ops_memory.metal:13-33) is that of CUDA, which computes the same elements; dtype
    and device validation (L12, L41) is left out, and so are capture and the
    flags of the result. *)
From Coq Require Import List Arith Bool.
From Verif Require Import Base IndexSpec LayoutModel KernelModel TensorModel LaunchModel.
Import ListNotations.

Inductive device := Cpu | Cuda (id : nat) | Metal.

Section Move.
Context {A : Type}.
Variables (z : A) (sched : nat -> list nat).

(** The storage's own contiguous: be_cpu/storage.rs:717-770 asks for offset 0 before it
    takes the storage as it is; be_cuda/storage.rs:677-705 and
    be_metal/storage.rs:565-590 do not. *)
Definition contiguous_on (d : device) (st : list A) (l : layout) : outcome (list A) :=
  match d with
  | Cpu => storage_contiguous z st l
  | Cuda _ | Metal =>
    if is_contiguous l then Ok st
    else ub (cuda_unary sched (fun x => x) st (repeat None (layout_size l)) (unary_metadata l l))
  end.

(** be/storage.rs:1372-1451 [to_device]: contiguous on the device it comes from, and
    then copied as it is *)
Definition storage_to_device (from to : device) (st : list A) (l : layout) : outcome (list A) := contiguous_on from st l.

(** cast_memory.rs:40-54 [Tensor::to_device]: the layout given to the storage is that
    of the shape, not that of the tensor *)
Definition t_to_device (from to : device) (t : tensor A) : outcome (tensor A) :=
  let l := from_shape (lshape (tlay t)) in
  do st <- storage_to_device from to (tstore t) l ;
  Ok (mkT st l).

(** cast_memory.rs:11-38 [Tensor::to_dtype] for the type the tensor has:
    be_cpu/storage.rs:693-696, be_cuda/storage.rs:597-600, be_metal/storage.rs:529-532 *)
Definition t_same_dtype (d : device) (t : tensor A) : outcome (tensor A) :=
  do st <- contiguous_on d (tstore t) (tlay t) ;
  Ok (mkT st (from_shape (lshape (tlay t)))).
End Move.
