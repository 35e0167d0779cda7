(** C35: einsum. *)
From Coq Require Import List Arith Bool Lia Sorted Permutation.
From Verif Require Import Base IndexSpec LayoutModel ViewSpec KernelModel KernelProofs TensorModel TensorSpec
  EinsumModel EinsumSpec EinsumProofs EinsumProofs2 EinsumProofs3.
Import ListNotations.

(** The equation "s1,..,sn->out" over operands whose sizes agree is accepted, names the
    output shape, and the kernel, given the layouts of all operands, stores the sum over
    the contracted labels of the product of all operands.  Missing: the call passes the
    layouts of the operands after the first only (refuted below); outputs with a label
    twice, empty outputs, more than 16 labels or axes. *)
Theorem C35_kernel_partial : forall (A B : Type) (up : A -> B) (down : B -> A) (zero one : B) (add mul : B -> B -> B)
    (size : nat -> nat) (subs : list (list nat)) (out : list nat) (ts : list (tensor A)) (z : A),
  subs <> [] -> Forall label (concat subs) -> sized subs ts size -> Forall good ts ->
  Forall (fun t => length (tshape t) <= 16) ts -> length ts <= 4 ->
  NoDup out -> incl out (concat subs) -> nelem (map size out) <> 0 ->
  exists p con, parse (text subs out) (map tshape ts) = Ok p /\ out_shape p = map size out /\
    contracted subs out con /\
    (length out + length con <= 16 ->
     exists r, einsum_kernel up down zero one add mul (map tstore ts) (repeat z (nelem (map size out)))
                 (einsum_metadata p (map tlay ts)) = Some r /\
       length r = nelem (map size out) /\
       forall o, valid (map size out) o ->
         exists s, einsum_at up zero one add mul subs out con size ts o = Some s /\
           nth_error r (ravel (map size out) o) = Some (down s)).
Proof. intros. now apply einsum_full. Qed.
Print Assumptions C35_kernel_partial.

(** An accepted equation has one size per label, and an output over its labels. *)
Theorem C35_accepts : forall eq shapes p, parse eq shapes = Ok p ->
  (exists size, map (map size) (p_subs p) = shapes /\ out_shape p = map size (p_out p)) /\
  incl (p_out p) (concat (p_subs p)).
Proof.
  intros eq shapes p H. destruct (parse_accepts eq shapes p H) as [S I]. split; auto.
  exists (psize p). split; auto.
Qed.
Print Assumptions C35_accepts.

(** Without "->" the output has the labels that occur exactly once, in increasing order. *)
Theorem C35_implicit : forall size subs, subs <> [] -> Forall label (concat subs) ->
  exists p, parse (join subs) (map (map size) subs) = Ok p /\ p_subs p = subs /\
    out_shape p = map size (p_out p) /\ contracted subs (p_out p) (p_con p) /\
    StronglySorted lt (p_out p) /\ forall c, In c (p_out p) <-> count_occ Nat.eq_dec (concat subs) c = 1.
Proof.
  intros size subs N L. destruct (parse_implicit size subs N L) as (p & out & E & P & S & C).
  exists p. pose proof (po_out _ _ _ _ P) as Q. rewrite Q. split; [auto|]. split; [apply (po_subs _ _ _ _ P)|].
  split; [|split; [apply (po_con _ _ _ _ P)|auto]].
  unfold out_shape. rewrite Q. apply map_ext_in. intros c H. apply (po_size _ _ _ _ P).
  apply C in H. apply (count_occ_In Nat.eq_dec). lia.
Qed.
Print Assumptions C35_implicit.

(** With one operand the result does not depend on the data at all. *)
Theorem C35_one_refuted : forall (A B : Type) (up : A -> B) (down : B -> A) (zero one : B) (add mul : B -> B -> B)
    (z : A) eq (t t' : tensor A), tshape t = tshape t' ->
  t_einsum up down zero one add mul z eq [t] = t_einsum up down zero one add mul z eq [t'].
Proof. intros. now apply t_einsum_blind. Qed.
Print Assumptions C35_one_refuted.

Definition einsum_nat := t_einsum (fun n : nat => n) (fun n => n) 0 1 Nat.add Nat.mul 0.
Definition at_nat := @einsum_at nat nat (fun n => n) 0 1 Nat.add Nat.mul.
Definition mat (l : list nat) (s : list nat) : tensor nat := mkT l (from_shape s).
Definition two (c : nat) : nat := 2.
Notation i_ := 105.
Notation j_ := 106.
Notation k_ := 107.

(** "ij->ji" of any 2x2 matrix is full of ones. *)
Example C35_transpose_ex :
  einsum_nat (text [[i_; j_]] [j_; i_]) [mat [1; 2; 3; 4] [2; 2]] = Ok (mat [1; 1; 1; 1] [2; 2]).
Proof. vm_compute. reflexivity. Qed.

(** "ij,jk->ik": the matrix product [[1,2],[3,4]] x [[5,6],[7,8]] comes out as the row sums
    of the first operand. *)
Theorem C35_matmul_refuted :
  exists a b r, einsum_nat (text [[i_; j_]; [j_; k_]] [i_; k_]) [a; b] = Ok r /\ good a /\ good b /\
    tstore r = [3; 3; 7; 7] /\
    map (at_nat [[i_; j_]; [j_; k_]] [i_; k_] [j_] two [a; b]) (all_idx [2; 2]) =
      [Some 19; Some 22; Some 43; Some 50].
Proof.
  exists (mat [1; 2; 3; 4] [2; 2]), (mat [5; 6; 7; 8] [2; 2]). eexists. split; [vm_compute; reflexivity|].
  assert (forall l, length l = 4 -> good (mat l [2; 2])) as G.
  { intros l L. split; [reflexivity|]. intros [|x [|y [|w r]]] V; simpl in V; try tauto.
    unfold addr. cbn. rewrite L. lia. }
  split; [now apply G|]. split; [now apply G|]. split; vm_compute; reflexivity.
Qed.
Print Assumptions C35_matmul_refuted.

(** "i,ij->j" (operands of different rank): the sections of the metadata are out of step
    and the kernel reads outside its arrays. *)
Theorem C35_rank_refuted :
  exists a b, good a /\ good b /\ einsum_nat (text [[i_]; [i_; j_]] [j_]) [a; b] = Panic /\
    map (at_nat [[i_]; [i_; j_]] [j_] [i_] two [a; b]) (all_idx [2]) = [Some 23; Some 34].
Proof.
  exists (mat [5; 6] [2]), (mat [1; 2; 3; 4] [2; 2]). split; [|split; [|split]]; try (vm_compute; reflexivity).
  - split; [reflexivity|]. intros [|x [|y r]] V; simpl in V; try tauto. unfold addr. cbn. lia.
  - split; [reflexivity|]. intros [|x [|y [|w r]]] V; simpl in V; try tauto. unfold addr. cbn. lia.
Qed.
Print Assumptions C35_rank_refuted.

(** An empty output: the kernel divides by zero, whatever the layouts passed. *)
Theorem C35_empty_refuted : forall (A B : Type) (up : A -> B) (down : B -> A) (zero one : B) (add mul : B -> B -> B)
    (z : A), t_einsum up down zero one add mul z (text [[i_]] [i_]) [mkT [] (from_shape [0])] = Panic /\
  exists p, parse (text [[i_]] [i_]) [[0]] = Ok p /\
    einsum_kernel up down zero one add mul [[]] [] (einsum_metadata p [from_shape [0]]) = None.
Proof. intros. split; [reflexivity|]. eexists. split; reflexivity. Qed.
Print Assumptions C35_empty_refuted.

(** A label twice in the output is accepted, and the second occurrence is ignored. *)
Theorem C35_repeated_refuted : forall (A B : Type) (up : A -> B) (down : B -> A) (zero one : B) (add mul : B -> B -> B)
    (z : A) (a b : A), exists p, parse (text [[i_]] [i_; i_]) [[2]] = Ok p /\
  einsum_kernel up down zero one add mul [[a; b]] [z; z; z; z] (einsum_metadata p [from_shape [2]]) =
    Some (map (fun x => down (add zero (mul one (up x)))) [a; a; b; b]).
Proof. intros. eexists. split; reflexivity. Qed.
Print Assumptions C35_repeated_refuted.

(** "ij,jk->ik" with the layouts of both operands: the matrix product. *)
Example C35_ex : exists p, parse (text [[i_; j_]; [j_; k_]] [i_; k_]) [[2; 2]; [2; 2]] = Ok p /\
  einsum_kernel (fun n : nat => n) (fun n => n) 0 1 Nat.add Nat.mul [[1; 2; 3; 4]; [5; 6; 7; 8]] (repeat 0 4)
    (einsum_metadata p [from_shape [2; 2]; from_shape [2; 2]]) = Some [19; 22; 43; 50] /\
  sized [[i_; j_]; [j_; k_]] [mat [1; 2; 3; 4] [2; 2]; mat [5; 6; 7; 8] [2; 2]] two /\
  Forall label [i_; j_; j_; k_] /\ contracted [[i_; j_]; [j_; k_]] [i_; k_] [j_].
Proof.
  eexists. split; [vm_compute; reflexivity|]. split; [vm_compute; reflexivity|]. split; [|split].
  - repeat constructor.
  - repeat constructor; discriminate.
  - split; [repeat constructor|]. intro c. cbn. split.
    + intros [<-|[]]. split; [tauto|]. intros [X|[X|[]]]; discriminate.
    + intros [[<-|[<-|[<-|[<-|[]]]]] N]; auto; exfalso; apply N; auto.
Qed.
