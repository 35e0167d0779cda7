(** Proofs for C125: both types are finite. *)
From Coq Require Import String.
From Coq Require Import List Bool.
From Verif Require Import Base EncodeModel DispatchModel DispatchSpec.
Import ListNotations.

Definition all_ops : list op := [Binary Binary_Add; Binary Binary_Sub; Binary Binary_Mul; Binary Binary_Div; Binary Binary_Rem; Binary Binary_Pow; Binary Binary_Maximum; Binary Binary_Minimum; BinaryLogical BinaryLogical_LogicalAnd; BinaryLogical BinaryLogical_LogicalOr; BinaryLogical BinaryLogical_LogicalXor; BitwiseBinary BitwiseBinary_Shl; BitwiseBinary BitwiseBinary_Shr; BitwiseBinary BitwiseBinary_And; BitwiseBinary BitwiseBinary_Or; BitwiseBinary BitwiseBinary_Xor; Cmp Cmp_Eq; Cmp Cmp_Ne; Cmp Cmp_Lt; Cmp Cmp_Le; Cmp Cmp_Gt; Cmp Cmp_Ge; CmpScalar CmpScalar_EqScalar; CmpScalar CmpScalar_NeScalar; CmpScalar CmpScalar_LtScalar; CmpScalar CmpScalar_LeScalar; CmpScalar CmpScalar_GtScalar; CmpScalar CmpScalar_GeScalar; Unary Unary_Neg; Unary Unary_Abs; Unary Unary_Sign; Unary Unary_Softsign; Unary Unary_Square; Unary Unary_Sqrt; Unary Unary_Recip; Unary Unary_Relu; Unary Unary_Sigmoid; Unary Unary_HardSigmoid; Unary Unary_Gelu; Unary Unary_Softplus; Unary Unary_Silu; Unary Unary_HardSilu; Unary Unary_Mish; Unary Unary_Selu; Unary Unary_Celu; Unary Unary_Sin; Unary Unary_Cos; Unary Unary_Tan; Unary Unary_Asin; Unary Unary_Acos; Unary Unary_Atan; Unary Unary_Sinh; Unary Unary_Cosh; Unary Unary_Tanh; Unary Unary_Asinh; Unary Unary_Acosh; Unary Unary_Atanh; Unary Unary_Exp; Unary Unary_Exp2; Unary Unary_Exp10; Unary Unary_Ln; Unary Unary_Log2; Unary Unary_Log10; Unary Unary_Ceil; Unary Unary_Floor; Unary Unary_Round; Unary Unary_Erf; UnaryLogical UnaryLogical_LogicalNot; UnaryLogical UnaryLogical_IsNan; UnaryLogical UnaryLogical_IsInf; UnaryLogical UnaryLogical_IsFinite; BitwiseUnary BitwiseUnary_Not; BitwiseUnaryScalar BitwiseUnaryScalar_ShlScalar; BitwiseUnaryScalar BitwiseUnaryScalar_ShrScalar; UnaryScalar UnaryScalar_AddScalar; UnaryScalar UnaryScalar_SubScalar; UnaryScalar UnaryScalar_MulScalar; UnaryScalar UnaryScalar_DivScalar; UnaryScalar UnaryScalar_RemScalar; UnaryScalar UnaryScalar_PowScalar; UnaryScalar UnaryScalar_MaximumScalar; UnaryScalar UnaryScalar_MinimumScalar; UnaryScalar UnaryScalar_LeakyRelu; UnaryScalar UnaryScalar_Elu; UnaryScalar UnaryScalar_Prelu; Matrix Matrix_Matmul; Matrix Matrix_Dot; Linalg Linalg_Det; Linalg Linalg_Inv; Linalg Linalg_Trace; Reduce Reduce_Sum; Reduce Reduce_Mean; Reduce Reduce_Max; Reduce Reduce_Min; Reduce Reduce_Prod; Reduce Reduce_Std; Reduce Reduce_Var; Reduce Reduce_Norm; Reduce Reduce_LogSum; Reduce Reduce_LogSumExp; Reduce Reduce_ArgMax; Reduce Reduce_ArgMin; Reduce Reduce_Any; Reduce Reduce_All; Concat Concat_Concat; Split Split_Split; Indexing Indexing_IndexSelect; Indexing Indexing_IndexPut; Indexing Indexing_Gather; Indexing Indexing_Scatter; Indexing Indexing_ScatterAdd; Indexing Indexing_ScatterMax; Indexing Indexing_ScatterMin; Indexing Indexing_Nonzero; Conv Conv_Conv1d; Conv Conv_Conv2d; Conv Conv_Conv3d; Conv Conv_ConvTranspose1d; Conv Conv_ConvTranspose2d; Conv Conv_ConvTranspose3d; Conv Conv_Conv1dGradWeight; Conv Conv_Conv2dGradWeight; Conv Conv_Conv3dGradWeight; Conv Conv_ConvTranspose1dGradWeight; Conv Conv_ConvTranspose2dGradWeight; Conv Conv_ConvTranspose3dGradWeight; Windowing Windowing_ReduceWindowMax; Windowing Windowing_ReduceWindowMean; Windowing Windowing_ReduceWindowSum; Windowing Windowing_ReduceWindowMin; Resize Resize_Resize; Padding Padding_PadConstant; Padding Padding_PadReflect; Padding Padding_PadReplicate; Padding Padding_PadCircular; Einsum Einsum_Einsum].
Lemma all_ops_complete : forall o, In o all_ops.
Proof. intros o. unfold all_ops. destruct o as [[]|[]|[]|[]|[]|[]|[]|[]|[]|[]|[]|[]|[]|[]|[]|[]|[]|[]|[]|[]|[]]; repeat (first [left; reflexivity | right]). Qed.
Lemma all_dtypes_complete : forall d, In d all_dtypes.
Proof. intros []; cbn; tauto. Qed.

(** the propositions of DispatchSpec as booleans *)
Definition suitsb (n : needs) (s : sort) : bool :=
  match n, s with
  | Anything, _ => true | Number, Boolean => false | Number, _ => true | WithSign, (Signed | Float) => true
  | Integer, (Unsigned | Signed) => true | Fraction, Float => true | _, _ => false
  end.
Definition unservedb (o : op) (d : dtype) : bool :=
  match o with
  | Binary Binary_Rem | UnaryScalar UnaryScalar_RemScalar => match sort_of d with Boolean => false | _ => true end
  | UnaryScalar (UnaryScalar_LeakyRelu | UnaryScalar_Elu | UnaryScalar_Prelu) => match sort_of d with Float => true | _ => false end
  | Unary Unary_Relu => match sort_of d with Signed => true | _ => false end
  | Reduce (Reduce_ArgMax | Reduce_ArgMin | Reduce_Any | Reduce_All) => match d with F64 => true | _ => false end
  | _ => false
  end.
Definition lateb (o : op) (d : dtype) : bool :=
  match o with
  | Reduce (Reduce_ArgMax | Reduce_ArgMin | Reduce_Any | Reduce_All) => match d with BOOL => true | _ => false end
  | _ => false
  end.
Lemma suits_iff : forall n s, suitsb n s = true <-> suits n s.
Proof. intros [] []; cbn; split; auto; discriminate. Qed.
Ltac cases o := destruct o as [o|o|o|o|o|o|o|o|o|o|o|o|o|o|o|o|o|o|o|o|o]; cbn; try (split; [discriminate|tauto]); destruct o; cbn; try (split; [discriminate|tauto]).
Lemma unserved_iff : forall o d, unservedb o d = true <-> unserved o d.
Proof. intros o d. cases o; destruct d; cbn; split; intros; try reflexivity; try discriminate; try congruence. Qed.
Lemma late_iff : forall o d, lateb o d = true <-> refused_late o d.
Proof. intros o d. cases o; destruct d; cbn; split; intros; try reflexivity; try discriminate. Qed.

Inductive result := Runs | Refused | Panics.
Definition result_of (r : outcome unit) : result := match r with Ok _ => Runs | Err _ => Refused | Panic => Panics end.
Definition expected (o : op) (d : dtype) : result :=
  if negb (suitsb (need o) (sort_of d)) || lateb o d then Refused else if unservedb o d then Panics else Runs.
Definition same (a b : result) : bool := match a, b with Runs, Runs | Refused, Refused | Panics, Panics => true | _, _ => false end.
Lemma all_checked : forallb (fun o => forallb (fun d => eqb (accepted o d) (suitsb (need o) (sort_of d)) && same (result_of (run o d)) (expected o d)) all_dtypes) all_ops = true.
Proof. vm_compute. reflexivity. Qed.
Lemma checked : forall o d, accepted o d = suitsb (need o) (sort_of d) /\ result_of (run o d) = expected o d.
Proof.
  intros o d. pose proof all_checked as H. rewrite forallb_forall in H. specialize (H o (all_ops_complete o)). rewrite forallb_forall in H.
  specialize (H d (all_dtypes_complete d)). apply andb_prop in H. destruct H as [H1 H2]. split; [now apply eqb_prop|].
  destruct (result_of (run o d)), (expected o d); try discriminate; reflexivity.
Qed.
Lemma unserved_suits : forall o d, unserved o d -> suitsb (need o) (sort_of d) = true /\ lateb o d = false.
Proof.
  intros o d U. apply unserved_iff in U. assert (E : forallb (fun o => forallb (fun d => implb (unservedb o d) (suitsb (need o) (sort_of d) && negb (lateb o d))) all_dtypes) all_ops = true)
    by (vm_compute; reflexivity).
  rewrite forallb_forall in E. specialize (E o (all_ops_complete o)). rewrite forallb_forall in E. specialize (E d (all_dtypes_complete d)). rewrite U in E.
  cbn [implb] in E. apply andb_prop in E. destruct E as [E1 E2]. split; [exact E1|]. now destruct (lateb o d).
Qed.
Lemma late_suits : forall o d, refused_late o d -> suitsb (need o) (sort_of d) = true /\ lateb o d = true.
Proof. intros o d U. split; [|now apply late_iff]. cases o; destruct U; reflexivity. Qed.

Lemma accepted_iff : forall o d, accepted o d = true <-> suits (need o) (sort_of d).
Proof. intros. rewrite (proj1 (checked o d)). apply suits_iff. Qed.
Lemma run_ok : forall o d, suits (need o) (sort_of d) -> ~ unserved o d -> ~ refused_late o d -> run o d = Ok tt.
Proof.
  intros o d S U L. pose proof (proj2 (checked o d)) as H. unfold expected in H. apply suits_iff in S. rewrite S in H.
  rewrite <- late_iff in L. rewrite <- unserved_iff in U. destruct (lateb o d); [now destruct L|]. destruct (unservedb o d); [now destruct U|].
  cbn in H. destruct (run o d) as [[]|e|]; try discriminate. reflexivity.
Qed.
Lemma run_panics : forall o d, run o d = Panic <-> unserved o d.
Proof.
  intros o d. pose proof (proj2 (checked o d)) as H. unfold expected in H. split.
  - intros R. rewrite R in H. cbn in H. destruct (negb _ || _); [discriminate|]. destruct (unservedb o d) eqn:U; [|discriminate]. now apply unserved_iff.
  - intros U. destruct (unserved_suits o d U) as [S L]. rewrite S, L in H. apply unserved_iff in U. rewrite U in H. cbn in H.
    destruct (run o d) as [[]|e|]; try discriminate. reflexivity.
Qed.
Lemma run_refused : forall o d, (exists e, run o d = Err e) <-> ~ suits (need o) (sort_of d) \/ refused_late o d.
Proof.
  intros o d. pose proof (proj2 (checked o d)) as H. unfold expected in H. rewrite <- suits_iff, <- late_iff.
  destruct (suitsb (need o) (sort_of d)), (lateb o d), (unservedb o d), (run o d) as [[]|e|]; cbn in H; try discriminate;
    split; intros K; try (destruct K as [e' K]; discriminate); try (destruct K as [K|K]; [now destruct K|discriminate]);
    first [right; reflexivity | left; intros Z; discriminate Z | exists e; reflexivity].
Qed.
