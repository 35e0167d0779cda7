(** The atomic updates of the CUDA kernels: the functions of
    crates/hodu_cuda_kernels/kernels/atomic.cuh, run by any number of threads
    under any schedule.

    Memory is a list of the words that atomicCAS works on: 32-bit words for
    elements of up to four bytes, 64-bit words for the others.  A thread calls
    one of the functions once, with the byte address of an element and a value;
    values are bit patterns.  The plain load before the loop and each atomicCAS
    are one step each; what lies between them is local to the thread.

    Simplifications: the load before the loop is an atomic read of the word
    (atomic.cuh reads it with a plain load); a shift such as 0xFF << 24 is done
    in 32 unsigned bits; addresses count from the start of the buffer, which
    cudaMalloc aligns to 256 bytes; the buffer is rounded up to whole words.
    The arithmetic on elements is a parameter [f], of the current bits and the
    bits of the value. *)
From Coq Require Import List Arith ZArith Bool Lia.
From Verif Require Import Base EncodeModel.
Import ListNotations.
Open Scope Z_scope.

(** The four ways an element is found inside its word:
    - [L8]: atomic_{add,max,min}_{i8,u8} (atomic.cuh:80-94, 124-138, 245-259,
      291-305, 419-433, 465-479);
    - [L16]: {i16,u16} (L96-109, 140-153, 261-274, 307-320, 435-448, 481-494);
    - [L16f]: {bf16,f16} (L38-66, 193-221, 367-395), which read two bytes of
      the assumed word through a pointer;
    - [L8f]: {f8e4m3,f8e5m2} (L8-36, 163-191, 337-365), which read one byte
      through a pointer and write sixteen bits;
    - [L32], [L64]: the whole word (L68-78, 111-122, 155-161, 223-243, 276-289,
      322-335, 397-417, 450-463, 496-509). *)
Inductive lane := L8 | L16 | L16f | L8f | L32 | L64.

(** The lane of each element type; BOOL has no atomic functions. *)
Definition lane_of (d : dtype) : option lane :=
  match d with
  | BOOL => None
  | F8E4M3 | F8E5M2 => Some L8f
  | BF16 | F16 => Some L16f
  | I8 | U8 => Some L8
  | I16 | U16 => Some L16
  | F32 | I32 | U32 => Some L32
  | F64 | I64 | U64 => Some L64
  end.

Inductive change := Add | Max | Min.

(** The functions that are a single hardware operation instead of a loop:
    atomicAdd (L68, 111-113, 155-161) and atomicMax, atomicMin (L276-278,
    322-324, 450-452, 496-498). *)
Definition hardware (c : change) (d : dtype) : bool :=
  match c, d with
  | Add, (F32 | I32 | U32 | U64) => true
  | (Max | Min), (I32 | U32) => true
  | _, _ => false
  end.

(** base = addr & ~3, as the number of the word. *)
Definition word (l : lane) (a : nat) : nat :=
  match l with L64 => a / 8 | _ => a / 4 end.

Definition word_bits (l : lane) : Z :=
  match l with L64 => 64 | _ => 32 end.

(** shift = (addr & 3) * 8 (L83) and offset = (addr & 2) ? 16 : 0 (L10). *)
Definition shift (l : lane) (a : nat) : Z :=
  match l with
  | L8 => Z.of_nat (a mod 4) * 8
  | L16 | L16f | L8f => if Nat.testbit a 1 then 16 else 0
  | L32 | L64 => 0
  end.

(** mask = 0xFF << shift (L84) and 0xFFFF << offset (L11). *)
Definition mask (l : lane) (a : nat) : Z :=
  match l with
  | L8 => Z.shiftl 255 (shift l a)
  | L16 | L16f | L8f => Z.shiftl 65535 (shift l a)
  | L32 | L64 => 0
  end.

(** current, taken out of the assumed word: L89 and L104 for the integers,
    L16 and L46 (a pointer to byte addr & 3 of [assumed]) for the floats. *)
Definition current (l : lane) (a : nat) (assumed : Z) : Z :=
  match l with
  | L8 => Z.land (Z.shiftr assumed (shift l a)) 255
  | L16 => Z.land (Z.shiftr assumed (shift l a)) 65535
  | L16f => Z.land (Z.shiftr assumed (Z.of_nat (a mod 4) * 8)) 65535
  | L8f => Z.land (Z.shiftr assumed (Z.of_nat (a mod 4) * 8)) 255
  | L32 | L64 => assumed
  end.

(** new_val = (assumed & ~mask) | (updated << shift) (L91).  For the eight bit
    floats the two bytes at the address of [updated] are used (L18): [updated]
    itself and whatever byte [g] follows it on the stack. *)
Definition renewed (l : lane) (g : Z) (a : nat) (assumed updated : Z) : Z :=
  match l with
  | L8 | L16 | L16f =>
      Z.lor (Z.land assumed (2 ^ 32 - 1 - mask l a)) (Z.shiftl updated (shift l a))
  | L8f =>
      Z.lor (Z.land assumed (2 ^ 32 - 1 - mask l a))
            (Z.shiftl (updated + 256 * g) (shift l a))
  | L32 | L64 => updated
  end.

(** One call: the byte address and the value. *)
Record call := { addr : nat; value : Z }.

(** Where a thread is: before the load, in the loop with the word it assumes,
    or after the loop. *)
Inductive place := Before | Loop (assumed : Z) | After.

Record state := { memory : list Z; places : list place }.

(** One step of thread [i].  In the loop: atomicCAS returns the word it finds;
    if that is the assumed one the new word is stored and the loop ends,
    otherwise the found word is assumed next (L12-20). *)
Definition step (l : lane) (g : Z) (hw : bool) (f : Z -> Z -> Z) (cs : list call)
           (i : nat) (s : state) : state :=
  match nth_error cs i, nth_error (places s) i with
  | Some c, Some p =>
      let found := nth (word l (addr c)) (memory s) 0 in
      let stored assumed :=
        upd (memory s) (word l (addr c))
            (renewed l g (addr c) assumed (f (current l (addr c) assumed) (value c))) in
      match p with
      | After => s
      | Before =>
          if hw then {| memory := stored found; places := upd (places s) i After |}
          else {| memory := memory s; places := upd (places s) i (Loop found) |}
      | Loop assumed =>
          if found =? assumed
          then {| memory := stored assumed; places := upd (places s) i After |}
          else {| memory := memory s; places := upd (places s) i (Loop found) |}
      end
  | _, _ => s
  end.

(** A schedule is the list of the threads that move, in order. *)
Definition run (l : lane) (g : Z) (hw : bool) (f : Z -> Z -> Z) (cs : list call)
           (sched : list nat) (s : state) : state :=
  fold_left (fun st i => step l g hw f cs i st) sched s.

Definition start (cs : list call) (m : list Z) : state :=
  {| memory := m; places := map (fun _ => Before) cs |}.

(** The integer arithmetic of the functions on bit patterns of [w] bits:
    int8_t updated = current + value (L90) and the comparisons
    (current > value) ? current : value (L255, L301) and with < (L429, L475). *)
Definition as_signed (w b : Z) : Z := if b <? 2 ^ (w - 1) then b else b - 2 ^ w.

Definition integer_change (c : change) (signed : bool) (w : Z) (cur v : Z) : Z :=
  let key := if signed then as_signed w else fun b => b in
  match c with
  | Add => (cur + v) mod 2 ^ w
  | Max => if key v <? key cur then cur else v
  | Min => if key cur <? key v then cur else v
  end.
