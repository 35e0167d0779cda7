(** Proofs about CudaReduceModel.v. *)
From Coq Require Import List Arith ZArith Bool Lia SpecFloat Permutation.
From Verif Require Import Base IndexSpec LayoutModel ViewSpec LayoutProofs KernelModel KernelProofs TensorModel TensorSpec TensorProofs.
From Verif Require Import ReduceModel ReduceSpec ReduceProofs ReduceProofs2 TileModel TileProofs4 LaunchModel LaunchSpec CudaIndexProofs.
From Verif Require Import EncodeModel CudaReduceModel.
From Verif Require ScalarModel FloatIntProofs.
Import ListNotations.
Local Open Scope nat_scope.

Section Same.
Context {A B C : Type} (sched : nat -> list nat) (init : B) (step : list nat -> list nat -> B -> A -> option B) (fin : nat -> B -> C).
Hypothesis EN : ending sched.

Lemma reduce_same : forall input out0 out md r nd n sh,
  nth_error md 0 = Some nd -> nth_error md (2 + 2 * nd) = Some n -> md_slice md (3 + 2 * nd) n = Some sh ->
  (Z.of_nat (length r) <= 2 ^ 32 - 256)%Z -> length out0 = shape_size sh -> length out = as_u32 (shape_size sh) ->
  reduce_kernel init step fin input out0 md = Some r -> cuda_reduce sched init step fin input out md = Some r.
Proof.
  intros input out0 out md r nd n sh M0 M1 M2 N L0 L H. unfold reduce_kernel in H. unfold cuda_reduce.
  rewrite M0 in *. cbn [obind] in *.
  destruct (md_slice md 1 nd) as [dims|]; [|discriminate]. cbn [obind] in *.
  destruct (md_slice md (1 + nd) nd) as [strides|]; [|discriminate]. cbn [obind] in *.
  destruct (nth_error md (1 + 2 * nd)) as [offset|]; [|discriminate]. cbn [obind] in *.
  rewrite M1 in *. cbn [obind] in *. rewrite M2 in *. cbn [obind] in *.
  destruct (nth_error md (3 + 2 * nd + n)) as [nr|]; [|discriminate]. cbn [obind] in *.
  destruct (md_slice md (4 + 2 * nd + n) nr) as [rd|]; [|discriminate]. cbn [obind] in *.
  destruct (nth_error md (4 + 2 * nd + n + nr)) as [kd|]; [|discriminate]. cbn [obind] in *.
  destruct (nth_error md (5 + 2 * nd + n + nr)) as [rs|]; [|discriminate]. cbn [obind] in *.
  destruct (seq_for_nth _ _ _ _ _ L0 H) as [LR _]. rewrite LR in N. rewrite as_u32_id in L by lia.
  exact (elementwise_same _ sched _ _ _ out0 out r EN N L0 L H (fun i v _ G => G)).
Qed.

Lemma call_reduce_same : forall dt z storage l dims keep st, wf_layout l -> cuda_reduces dt = true ->
  (Z.of_nat (length st) <= 2 ^ 32 - 256)%Z ->
  call_ops_reduce init step fin z storage l dims keep = Ok st ->
  cuda_call_reduce sched init step fin dt storage l dims keep = Ok st.
Proof.
  intros dt z storage l dims keep st W D N H. unfold call_ops_reduce in H. unfold cuda_call_reduce.
  destruct (existsb _ dims); [discriminate|]. rewrite D. cbn [negb].
  destruct (reduce_md l dims keep W) as (M0 & _ & _ & _ & M1 & M2 & _).
  set (md := reduce_metadata l dims keep) in *. clearbody md.
  destruct (reduce_kernel _ _ _ _ _ _) as [r|] eqn:R; [|discriminate]. cbn [ub] in H. injection H as <-.
  rewrite (reduce_same storage (repeat z (shape_size (kernel_out_shape keep dims (lshape l)))) _ md r _ _ _ M0 M1 M2 N);
    [reflexivity|apply repeat_length|apply repeat_length|exact R].
Qed.
Lemma t_reduce_same : forall dt z (t : tensor A) dims keep r, wf_layout (tlay t) -> cuda_reduces dt = true ->
  (Z.of_nat (length (tstore r)) <= 2 ^ 32 - 256)%Z ->
  t_reduce init step fin z t dims keep = Ok r -> cuda_t_reduce sched init step fin dt t dims keep = Ok r.
Proof.
  intros dt z t dims keep r W D N H. unfold t_reduce in H. unfold cuda_t_reduce.
  destruct (mark_axes _ _ _) as [p| |]; try discriminate. cbn [bind] in *.
  destruct (call_ops_reduce _ _ _ _ _ _ _ _) as [st| |] eqn:S1; try discriminate. cbn [bind] in H. injection H as <-.
  cbn [tstore] in N. now rewrite (call_reduce_same dt z _ _ _ _ st W D N S1).
Qed.
Lemma t_reduce_types : forall dt (t : tensor A) dims keep r, cuda_reduces dt = false ->
  cuda_t_reduce sched init step fin dt t dims keep <> Ok r.
Proof.
  intros dt t dims keep r D. unfold cuda_t_reduce, cuda_call_reduce. rewrite D. cbn [negb].
  destruct (mark_axes _ _ _) as [p| |]; try discriminate. cbn [bind]. now destruct (existsb _ _).
Qed.
End Same.

(** a good tensor of a shape from [from_shape] has as many elements as the shape says *)
Lemma reduced_size : forall A B C (init : B) step (h : list nat -> B -> A -> B) (fin : nat -> B -> C) z (d0 : A) (t : tensor A) dims ds keep r,
  good t -> axes_of (length (tshape t)) dims ds -> NoDup ds -> length (tshape t) <= 16 -> kept_pos keep ds (tshape t) ->
  (forall ii b v, length ii = length (tshape t) -> step ds ii b v = Some (h ii b v)) ->
  t_reduce init step fin z t dims keep = Ok r -> length (tstore r) = nelem (rshape keep ds (tshape t)).
Proof.
  intros A B C init step h fin z d0 t dims ds keep r G AX ND HR K HS H.
  pose proof (axes_lt _ _ _ AX) as HF.
  destruct (call_reduce_spec init step h fin z d0 t ds keep G ND HF HR HS) as (st & E & L & _).
  unfold t_reduce in H. fold (tshape t) in H. rewrite (reduce_axes_spec _ _ _ AX), mark_axes_spec in H by auto.
  cbn [bind fst snd] in H. rewrite E in H. cbn [bind] in H. injection H as <-. exact L.
Qed.

Lemma cuda_plain : forall A B C sched (init : B) (f : B -> A -> B) (fin : nat -> B -> C) dt (z : C) (d0 : A) (t : tensor A) dims ds keep,
  ending sched -> cuda_reduces dt = true -> good t -> axes_of (length (tshape t)) dims ds -> NoDup ds -> length (tshape t) <= 16 ->
  kept_pos keep ds (tshape t) -> (Z.of_nat (nelem (rshape keep ds (tshape t))) <= 2 ^ 32 - 256)%Z ->
  exists r, cuda_t_reduce sched init (plain f) fin dt t dims keep = Ok r /\
    good r /\ tlay r = from_shape (rshape keep ds (tshape t)) /\
    forall j, valid (tshape r) j -> exists L vs,
      Permutation L (fibre keep ds (tshape t) j) /\
      Forall2 (fun i v => elem t i = Some v) L vs /\
      elem r j = Some (fin (nelem (extents ds (tshape t))) (fold_left f vs init)).
Proof.
  intros A B C sched init f fin dt z d0 t dims ds keep EN D G AX ND HR K N.
  destruct (reduce_plain A B C init f fin z d0 t dims ds keep G AX ND HR K) as (r & E & R).
  exists r. split; [|exact R]. apply (t_reduce_same sched init _ fin EN dt z t dims keep r); [exact (proj1 G)|exact D| |exact E].
  rewrite (reduced_size A B C init (plain f) (fun _ b v => f b v) fin z d0 t dims ds keep r G AX ND HR K (fun _ _ _ _ => eq_refl) E). exact N.
Qed.

(** ** Integers through [float] *)
Definition magnitude (vs : list Z) : Z := fold_right (fun v a => Z.abs v + a)%Z 0%Z vs.
Lemma magnitude_perm : forall l l', Permutation l l' -> magnitude l = magnitude l'.
Proof. induction 1; cbn [magnitude fold_right] in *; unfold magnitude in *; lia. Qed.
Lemma magnitude_pos : forall l, (0 <= magnitude l)%Z.
Proof. induction l; unfold magnitude in *; cbn [fold_right] in *; lia. Qed.
Lemma fold_add_perm : forall l l', Permutation l l' -> forall b, fold_left Z.add l b = fold_left Z.add l' b.
Proof.
  induction 1; intro b; cbn [fold_left]; auto. - f_equal. lia. - now rewrite IHPermutation1.
Qed.
Lemma float_sum : forall vs b, (Z.abs b + magnitude vs < 2 ^ 24)%Z ->
  fold_left (fun acc v => SFadd 24 128 acc (float_of v)) vs (float_of b) = float_of (fold_left Z.add vs b) /\
  (Z.abs (fold_left Z.add vs b) < 2 ^ 24)%Z.
Proof.
  induction vs as [|v vs IH]; intros b M; cbn [fold_left]; [split; [reflexivity|cbn in M; lia]|].
  change (magnitude (v :: vs)) with (Z.abs v + magnitude vs)%Z in M. pose proof (magnitude_pos vs).
  change (float_of b) with (FloatIntProofs.fz b). change (float_of v) with (FloatIntProofs.fz v).
  rewrite FloatIntProofs.add_fz by (unfold FloatIntProofs.tiny; lia). apply (IH (b + v)%Z). lia.
Qed.
Lemma back : forall signed n, (Z.abs n < 2 ^ 24)%Z -> (signed = false -> 0 <= n)%Z -> int_of (int_type signed) (float_of n) = n.
Proof.
  intros signed n M P. unfold int_of. pose proof (FloatIntProofs.toward_zero_fz n M) as T. change (FloatIntProofs.fz n) with (float_of n) in T.
  destruct (FloatIntProofs.fz_valid n M) as [F _]. change (FloatIntProofs.fz n) with (float_of n) in F.
  unfold ScalarModel.float_as. rewrite T.
  assert (LO : (ScalarModel.lowest (int_type signed) <= n)%Z) by (destruct signed; cbn in *; lia).
  assert (HI : (n <= ScalarModel.highest (int_type signed))%Z) by (destruct signed; cbn in *; lia).
  destruct (float_of n); cbn in F; try contradiction; lia.
Qed.
Lemma fold_add_nonneg : forall vs b, (0 <= b)%Z -> Forall (fun v => 0 <= v)%Z vs -> (0 <= fold_left Z.add vs b)%Z.
Proof. induction vs as [|v vs IH]; intros b P F; cbn [fold_left]; [exact P|]. inversion F; subst. apply IH; [lia|assumption]. Qed.
Lemma elems_forall : forall A (t : tensor A) (P : A -> Prop) L vs, (forall i v, elem t i = Some v -> P v) ->
  Forall2 (fun i v => elem t i = Some v) L vs -> Forall P vs.
Proof. intros A t P L vs H. induction 1; constructor; eauto. Qed.

Lemma cuda_sum : forall sched signed (t : tensor Z) dims ds keep, ending sched -> good t ->
  axes_of (length (tshape t)) dims ds -> NoDup ds -> length (tshape t) <= 16 -> kept_pos keep ds (tshape t) ->
  (Z.of_nat (nelem (rshape keep ds (tshape t))) <= 2 ^ 32 - 256)%Z ->
  (signed = false -> forall i v, elem t i = Some v -> 0 <= v)%Z ->
  (forall j vs, valid (rshape keep ds (tshape t)) j ->
     Forall2 (fun i v => elem t i = Some v) (fibre keep ds (tshape t) j) vs -> magnitude vs < 2 ^ 24)%Z ->
  exists r, cuda_int_sum sched signed t dims keep = Ok r /\ good r /\ tlay r = from_shape (rshape keep ds (tshape t)) /\
    forall j, valid (tshape r) j -> exists vs,
      Forall2 (fun i v => elem t i = Some v) (fibre keep ds (tshape t) j) vs /\ elem r j = Some (fold_left Z.add vs 0%Z).
Proof.
  intros sched signed t dims ds keep EN G AX ND HR K N U M.
  assert (D : cuda_reduces (int_dtype signed) = true) by now destruct signed.
  destruct (cuda_plain Z _ Z sched (S754_zero false) (fun acc v => SFadd 24 128 acc (float_of v)) (fun _ b => int_of (int_type signed) b)
              (int_dtype signed) 0%Z 0%Z t dims ds keep EN D G AX ND HR K N) as (r & E & GR & LR & H).
  exists r. split; [exact E|]. split; [exact GR|]. split; [exact LR|]. intros j J.
  destruct (H j J) as (L & vs & P & F & V). destruct (Forall2_perm _ _ _ _ _ P vs F) as (vs' & PV & F').
  exists vs'. split; [exact F'|]. rewrite V. f_equal. unfold tshape in J at 1. rewrite LR in J.
  pose proof (M j vs' J F') as MV. rewrite <- (magnitude_perm _ _ PV) in MV.
  destruct (float_sum vs 0%Z) as [S1 S2]; [exact MV|]. change (float_of 0) with (S754_zero false) in S1.
  rewrite S1, <- (fold_add_perm _ _ PV 0%Z). apply back; [exact S2|]. intro SG. apply fold_add_nonneg; [lia|].
  exact (elems_forall Z t _ L vs (U SG) F).
Qed.

(** the greatest element *)
Lemma least_below : forall signed v, (Z.abs v < 2 ^ 24)%Z -> (signed = false -> 0 <= v)%Z ->
  SFltb (float_of v) (float_of (ScalarModel.lowest (int_type signed))) = false.
Proof.
  intros signed v M P. destruct signed.
  - change (float_of v) with (FloatIntProofs.fz v). rewrite FloatIntProofs.fz_form by exact M. unfold FloatIntProofs.form.
    change (float_of (ScalarModel.lowest (int_type true))) with (S754_finite true 8388608 8).
    destruct (v =? 0)%Z eqn:Z0; [reflexivity|]. apply Z.eqb_neq in Z0.
    destruct (FloatIntProofs.digits_tiny v Z0 M) as [DG _]. cbv zeta. unfold SFltb, SFcompare.
    destruct (v <? 0)%Z; [|reflexivity]. replace (_ - 24 ?= 8)%Z with Lt by (symmetry; apply Z.compare_lt_iff; lia). reflexivity.
  - change (float_of (ScalarModel.lowest (int_type false))) with (FloatIntProofs.fz 0). change (float_of v) with (FloatIntProofs.fz v).
    rewrite FloatIntProofs.ltb_fz by (unfold FloatIntProofs.tiny; cbn; lia). apply Z.ltb_ge. now apply P.
Qed.
Lemma float_max : forall signed vs b, Forall (fun v => Z.abs v < 2 ^ 24)%Z vs -> (signed = false -> Forall (fun v => 0 <= v)%Z vs) ->
  (Z.abs b < 2 ^ 24 /\ (signed = false -> 0 <= b) \/ b = ScalarModel.lowest (int_type signed))%Z ->
  fold_left (fun acc v => if SFltb (float_of v) acc then acc else float_of v) vs (float_of b) = float_of (fold_left Z.max vs b) /\
  (Z.abs (fold_left Z.max vs b) < 2 ^ 24 /\ (signed = false -> 0 <= fold_left Z.max vs b) \/
   fold_left Z.max vs b = ScalarModel.lowest (int_type signed))%Z.
Proof.
  intros signed. induction vs as [|v vs IH]; intros b F P B; cbn [fold_left]; [split; [reflexivity|exact B]|].
  inversion F as [|? ? V F']; subst.
  assert (PV : (signed = false -> 0 <= v)%Z) by (intro SG; specialize (P SG); now inversion P).
  assert (P' : signed = false -> Forall (fun v => 0 <= v)%Z vs) by (intro SG; specialize (P SG); now inversion P).
  assert (ST : (if SFltb (float_of v) (float_of b) then float_of b else float_of v) = float_of (Z.max b v)).
  { destruct B as [[B _] | ->].
    - change (float_of v) with (FloatIntProofs.fz v). change (float_of b) with (FloatIntProofs.fz b).
      rewrite FloatIntProofs.ltb_fz by assumption. destruct (v <? b)%Z eqn:O; unfold FloatIntProofs.fz, float_of; f_equal; lia.
    - rewrite least_below by assumption. f_equal. assert (ScalarModel.lowest (int_type signed) <= v)%Z by (destruct signed; cbn in *; lia). lia. }
  rewrite ST. apply IH; [exact F'|exact P'|]. destruct B as [[B BP] | ->]; [left; split; [lia|intro SG; specialize (BP SG); lia]|].
  left. assert (Z.max (ScalarModel.lowest (int_type signed)) v = v) as -> by (destruct signed; cbn in *; lia). now split.
Qed.
Lemma fold_max_perm : forall l l', Permutation l l' -> forall b, fold_left Z.max l b = fold_left Z.max l' b.
Proof.
  induction 1; intro b; cbn [fold_left]; auto. - f_equal. lia. - now rewrite IHPermutation1.
Qed.
Lemma cuda_max : forall sched signed (t : tensor Z) dims ds keep, ending sched -> good t ->
  axes_of (length (tshape t)) dims ds -> NoDup ds -> length (tshape t) <= 16 -> kept_pos keep ds (tshape t) ->
  (Z.of_nat (nelem (rshape keep ds (tshape t))) <= 2 ^ 32 - 256)%Z ->
  (forall i v, elem t i = Some v -> Z.abs v < 2 ^ 24 /\ (signed = false -> 0 <= v))%Z ->
  exists r, cuda_int_max sched signed t dims keep = Ok r /\ good r /\ tlay r = from_shape (rshape keep ds (tshape t)) /\
    forall j, valid (tshape r) j -> exists vs,
      Forall2 (fun i v => elem t i = Some v) (fibre keep ds (tshape t) j) vs /\
      elem r j = Some (fold_left Z.max vs (ScalarModel.lowest (int_type signed))).
Proof.
  intros sched signed t dims ds keep EN G AX ND HR K N U.
  assert (D : cuda_reduces (int_dtype signed) = true) by now destruct signed.
  destruct (cuda_plain Z _ Z sched (float_of (ScalarModel.lowest (int_type signed))) (fun acc v => if SFltb (float_of v) acc then acc else float_of v)
              (fun _ b => int_of (int_type signed) b) (int_dtype signed) 0%Z 0%Z t dims ds keep EN D G AX ND HR K N) as (r & E & GR & LR & H).
  exists r. split; [exact E|]. split; [exact GR|]. split; [exact LR|]. intros j J.
  destruct (H j J) as (L & vs & P & F & V). destruct (Forall2_perm _ _ _ _ _ P vs F) as (vs' & PV & F').
  exists vs'. split; [exact F'|]. rewrite V. f_equal. rewrite <- (fold_max_perm _ _ PV).
  destruct (float_max signed vs (ScalarModel.lowest (int_type signed))) as [S1 S2].
  - apply (elems_forall Z t _ L vs); [intros i v I; apply (U i v I)|exact F].
  - intro SG. apply (elems_forall Z t _ L vs); [intros i v I; now apply (U i v I)|exact F].
  - now right.
  - rewrite S1. destruct S2 as [[S2 S3] | S2]; [now apply back|]. rewrite S2. destruct signed; reflexivity.
Qed.
