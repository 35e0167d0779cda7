(** Property C136: top-k selection on CUDA. *)
From Coq Require Import List Arith ZArith Lia Bool SpecFloat.
From Verif Require Import Base IndexSpec LayoutModel ViewSpec LayoutProofs KernelModel TensorModel TensorSpec TensorProofs SortModel SortProofs.
From Verif Require Import MoveModel ScalarModel LaunchModel LaunchSpec LaunchProofs CudaIndexProofs2 CudaTopkModel CudaTopkProofs.
Import ListNotations.
Local Open Scope nat_scope.

(** The [k] topmost of every fibre along the last axis, in order, under every
    schedule that ends, for fibres of at most 64 elements of a type whose values
    survive the way through [float]: as C33, and in order even if not asked for.
    Excluded as there: axes other than the last, non-contiguous tensors, NaN. *)
Theorem C136_topk_partial : forall A K (gt : K -> K -> bool),
  (forall a b, gt a b = true -> gt b a = false) ->
  (forall a b c, gt a b = false -> gt b c = false -> gt a c = false) ->
  forall (key : A -> K) (back : K -> A) sched, (forall x, back (key x) = x) ->
  (forall n, over (execute Once n (sched n))) ->
  forall z (t : tensor A) s n k a lg st, good t ->
  is_contiguous (tlay t) = true -> tshape t = s ++ [n] -> axis_ok (length (tshape t)) a ->
  axis_of (length (tshape t)) a = length s -> 0 < k -> k <= n -> n <= 64 -> 0 < nelem s -> (Z.of_nat (nelem s) < 2 ^ 32)%Z ->
  exists v ix, cuda_t_topk key gt back sched z t k a lg st = Ok (v, ix) /\ good v /\ good ix /\
    tshape v = s ++ [k] /\ tshape ix = s ++ [k] /\
    forall o, valid s o -> exists row js, length row = n /\
      (forall i, i < n -> nth_error row i = elem t (o ++ [i])) /\
      (length js = k /\ NoDup js /\ (forall j, In j js -> j < length row) /\
       (forall i j x y, In i js -> ~ In j js -> nth_error row i = Some x -> nth_error row j = Some y ->
          (if lg then gt (key y) (key x) else gt (key x) (key y)) = false) /\
       (forall p q i j x y, p < q -> nth_error js p = Some i -> nth_error js q = Some j ->
          nth_error row i = Some x -> nth_error row j = Some y ->
          (if lg then gt (key y) (key x) else gt (key x) (key y)) = false)) /\
      forall i, i < k -> exists j, nth_error js i = Some j /\
        elem v (o ++ [i]) = elem t (o ++ [j]) /\ elem ix (o ++ [i]) = Some (Z.of_nat j).
Proof.
  intros A K gt H1 H2 key back sched BK EN z t s n k a lg st G C S AX AD K0 KN N64 S0 M.
  assert (K64 : k <= 64) by lia.
  destruct (cuda_t_topk_spec A K gt H1 H2 key back sched EN z t s n k a lg st G C S AX AD K0 KN K64 S0 M)
    as (v & ix & R & GV & GI & SV & SI & F).
  exists v, ix. do 5 (split; [assumption|]). intros o V. destruct (F o V) as (row & js & L & RW & (T1 & T2 & T3 & T4 & T5) & W).
  rewrite Nat.min_l in L, RW by exact N64. exists row, js. split; [exact L|]. split; [exact RW|].
  split; [do 4 (split; [assumption|]); exact (T5 eq_refl)|].
  intros i I. destruct (W i I) as (j & x & J & X & Y & Z0). exists j. split; [exact J|]. split; [|exact Z0]. now rewrite Y, X, BK.
Qed.
Print Assumptions C136_topk_partial.

(** In general: of the first 64 elements of the fibre, and the values converted to
    [float] and back. *)
Theorem C136_first_64_partial : forall A K (gt : K -> K -> bool),
  (forall a b, gt a b = true -> gt b a = false) ->
  (forall a b c, gt a b = false -> gt b c = false -> gt a c = false) ->
  forall (key : A -> K) (back : K -> A) sched, (forall n, over (execute Once n (sched n))) ->
  forall z (t : tensor A) s n k a lg st, good t ->
  is_contiguous (tlay t) = true -> tshape t = s ++ [n] -> axis_ok (length (tshape t)) a ->
  axis_of (length (tshape t)) a = length s -> 0 < k -> k <= n -> k <= 64 -> 0 < nelem s -> (Z.of_nat (nelem s) < 2 ^ 32)%Z ->
  exists v ix, cuda_t_topk key gt back sched z t k a lg st = Ok (v, ix) /\
    forall o, valid s o -> exists js, length js = k /\ NoDup js /\
      (forall j, In j js -> j < n /\ j < 64) /\
      (forall i j x y, In i js -> ~ In j js -> j < 64 -> elem t (o ++ [i]) = Some x -> elem t (o ++ [j]) = Some y -> j < n ->
          (if lg then gt (key y) (key x) else gt (key x) (key y)) = false) /\
      forall i, i < k -> exists j x, nth_error js i = Some j /\ elem t (o ++ [j]) = Some x /\
        elem v (o ++ [i]) = Some (back (key x)) /\ elem ix (o ++ [i]) = Some (Z.of_nat j).
Proof.
  intros A K gt H1 H2 key back sched EN z t s n k a lg st G C S AX AD K0 KN K64 S0 M.
  destruct (cuda_t_topk_spec A K gt H1 H2 key back sched EN z t s n k a lg st G C S AX AD K0 KN K64 S0 M)
    as (v & ix & R & GV & GI & SV & SI & F).
  exists v, ix. split; [exact R|]. intros o V. destruct (F o V) as (row & js & L & RW & (T1 & T2 & T3 & T4 & T5) & W).
  exists js. do 2 (split; [assumption|]). split; [intros j J; specialize (T3 j J); lia|]. split; [|exact W].
  intros i j x y I J J64 X Y JN. assert (i < length row) by (apply T3; exact I).
  apply (T4 i j); auto; rewrite RW by lia; assumption.
Qed.
Print Assumptions C136_first_64_partial.

(** A schedule: every thread once. *)
Definition each_thread (n : nat) : list nat := seq 0 (launched n).
Theorem C136_schedule_exists : forall n, over (execute Once n (each_thread n)).
Proof.
  intro n. apply over_path. intros t T.
  assert (C : count_occ Nat.eq_dec (each_thread n) t = 1).
  { apply (proj1 (NoDup_count_occ' Nat.eq_dec _) (seq_NoDup (launched n) 0)). apply in_seq. lia. }
  rewrite C. cbn [path]. destruct (t <? launched n); [|reflexivity]. destruct (t <? n); reflexivity.
Qed.
Print Assumptions C136_schedule_exists.

Example C136_ex :  (* as C33_ex: two rows with ties; the three largest, in order *)
  cuda_t_topk (fun x => x) Z.gtb (fun x => x) each_thread 0%Z (mkT [3;1;4;1;5; 2;7;7;0;7]%Z (from_shape [2;5])) 3 (-1)%Z true false
  = Ok (mkT [5;4;3; 7;7;7]%Z (from_shape [2;3]), mkT [4;2;0; 1;2;4]%Z (from_shape [2;3])).
Proof. vm_compute. reflexivity. Qed.
(** Along the first axis of a 3x2 matrix the permuted copy's shape and rows are counted, but the
    storage given is the original one: the largest two of the first column come out as 3 and 2. *)
Example C136_first_axis_ex :
  cuda_t_topk (fun x => x) Z.gtb (fun x => x) each_thread 0%Z (mkT [1;2;3;4;5;6]%Z (from_shape [3;2])) 2 0%Z true false
  = Ok (mkT [3;2;6;5]%Z (mkLayout [2;2] [1;2] 0), mkT [2;1;2;1]%Z (mkLayout [2;2] [1;2] 0)).
Proof. vm_compute. reflexivity. Qed.
Example C136_ex_meets :
  (forall n, over (execute Once n (each_thread n))) /\
  let t := mkT [3;1;4;1;5; 2;7;7;0;7]%Z (from_shape [2;5]) in
  good t /\ is_contiguous (tlay t) = true /\ axis_ok (length (tshape t)) (-1)%Z /\ axis_of (length (tshape t)) (-1)%Z = 1.
Proof.
  split; [exact C136_schedule_exists|]. cbv zeta. split; [now apply from_shape_good|].
  split; [reflexivity|]. split; [split; cbn; lia|reflexivity].
Qed.

(** The largest of 0, ..., 64 is said to be 63, whatever the schedule: elements from
    the 65th on are not looked at. *)
Theorem C136_beyond_64_refuted : forall sched, (forall n, over (execute Once n (sched n))) ->
  let t := mkT (map Z.of_nat (seq 0 65)) (from_shape [65]) in
  elem t [64] = Some 64%Z /\
  exists v ix, cuda_t_topk (fun x => x) Z.gtb (fun x => x) sched 0%Z t 1 0%Z true true = Ok (v, ix) /\
    elem v [0] = Some 63%Z /\ elem ix [0] = Some 63%Z.
Proof.
  intros sched EN t. split; [reflexivity|].
  assert (G1 : forall x y, Z.gtb x y = true -> Z.gtb y x = false).
  { intros x y H. rewrite Z.gtb_ltb in *. apply Z.ltb_lt in H. apply Z.ltb_ge. lia. }
  assert (G2 : forall x y w, Z.gtb x y = false -> Z.gtb y w = false -> Z.gtb x w = false).
  { intros x y w H1 H2. rewrite Z.gtb_ltb in *. apply Z.ltb_ge in H1, H2. apply Z.ltb_ge. lia. }
  destruct (C136_first_64_partial Z Z Z.gtb G1 G2 (fun x : Z => x) (fun x : Z => x) sched EN 0%Z t [] 65 1 0%Z true true) as (v & ix & R & F);
    [now apply from_shape_good|reflexivity|reflexivity|split; cbn; lia|reflexivity|lia|lia|lia|apply le_n|reflexivity|].
  - exists v, ix. split; [exact R|]. destruct (F [] I) as (js & L & ND & B & T & W).
    destruct (W 0 ltac:(lia)) as (j & x & J & X & V1 & V2). cbn [app] in *.
    assert (EL : forall i, i < 65 -> elem t [i] = Some (Z.of_nat i)).
    { intros i Hi. unfold elem, t. cbn [tlay tstore]. replace (addr (from_shape [65]) [i]) with i by (cbn; lia).
      rewrite nth_error_map_seq by exact Hi. reflexivity. }
    assert (IJ : In j js) by (now apply nth_error_In with 0). destruct (B j IJ) as [B1 B2].
    assert (JJ : js = [j]) by (destruct js as [|j0 [|]]; try discriminate; cbn in J; congruence).
    assert (j = 63).
    { destruct (Nat.eq_dec j 63) as [|N]; auto. exfalso.
      assert (Q := T j 63 (Z.of_nat j) 63%Z IJ). rewrite JJ in Q.
      assert (Q2 : (63 >? Z.of_nat j)%Z = false).
      { apply Q; [|lia|now apply EL|now apply (EL 63); lia|lia]. intros [H|[]]. lia. }
      rewrite Z.gtb_ltb in Q2. apply Z.ltb_ge in Q2. lia. }
    subst j. rewrite (EL 63) in X by lia. injection X as <-. auto.
Qed.
Print Assumptions C136_beyond_64_refuted.

(** More than 64 of a fibre: the cells from the 65th on are never written. *)
Theorem C136_more_than_64_refuted : forall A K (gt : K -> K -> bool) (key : A -> K) (back : K -> A) sched z (t : tensor A) s n k a lg st,
  is_contiguous (tlay t) = true -> tshape t = s ++ [n] -> axis_ok (length (tshape t)) a ->
  axis_of (length (tshape t)) a = length s -> k <= n -> 64 < k -> 0 < nelem s ->
  cuda_t_topk key gt back sched z t k a lg st = Panic.
Proof. exact cuda_t_topk_many. Qed.
Print Assumptions C136_more_than_64_refuted.

(** Integers go through [float]: the largest of the single element 16777217 is said
    to be 16777216, a value that is not in the tensor. *)
Definition gt32 (a b : spec_float) : bool := match SFcompare a b with Some Gt => true | _ => false end.
Theorem C136_integers_refuted : forall sched, (forall n, over (execute Once n (sched n))) ->
  exists v ix, cuda_t_topk (of_z F32) gt32 toward_zero sched 0%Z (mkT [16777217]%Z (from_shape [1])) 1 0%Z true true = Ok (v, ix) /\
    elem v [0] = Some 16777216%Z.
Proof.
  intros sched EN. unfold cuda_t_topk, cuda_topk. cbn [tlay lshape from_shape]. cbn [length Nat.eqb].
  pose proof (once_once 1 (sched 1) ltac:(lia) (EN 1)) as P. unfold each_once in P.
  apply Permutation.Permutation_sym, Permutation.Permutation_length_1_inv in P.
  change (axis_usize 1 0) with (Some 0). cbn [nth_error Nat.ltb Nat.leb Nat.eqb negb Nat.sub bind].
  change (t_contiguous 0%Z (mkT [16777217]%Z (from_shape [1]))) with (Ok (mkT [16777217]%Z (from_shape [1]))).
  cbn [bind tlay from_shape lshape nth firstn]. change (shape_size []) with 1. unfold topk_metadata. cbn [nth_error obind].
  rewrite P. eexists. eexists. split; [vm_compute; reflexivity|]. vm_compute. reflexivity.
Qed.
Print Assumptions C136_integers_refuted.
(** The CPU kernel copies the element itself. *)
Example C136_cpu_keeps : forall qsort, qsort = (fun _ l => l) ->
  t_topk (of_z F32) gt32 qsort 0%Z (mkT [16777217]%Z (from_shape [1])) 1 0%Z true true
  = Ok (mkT [16777217]%Z (from_shape [1]), mkT [0]%Z (from_shape [1])).
Proof. intros qsort ->. vm_compute. reflexivity. Qed.
