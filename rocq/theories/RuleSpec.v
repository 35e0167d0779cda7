(** Derivatives of kernels that may also yield NaN. *)
From Coq Require Import Reals Lra List.
Import ListNotations.
From Verif Require Import Base RuleModel.
Open Scope R_scope.

(** [F] is real-valued around [x] and has the derivative [d] there. *)
Definition has_derivative (F : R -> el) (x d : R) : Prop :=
  exists f delta, 0 < delta /\ (forall y, Rabs (y - x) < delta -> F y = Fl (f y))
    /\ derivable_pt_lim f x d.

(** The error function, up to an additive constant: the integral of the scaled
    Gaussian. *)
Definition gauss (t : R) : R := 2 / sqrt PI * exp (- (t * t)).
Definition is_erf (erf : R -> R) : Prop :=
  forall a b (pr : Riemann_integrable gauss a b), erf b - erf a = RiemannInt pr.

(** Sets of inputs, one per operation, on which the function has a derivative
    ([False] for the two operations whose rule always fails). *)
Definition smooth_on (o : unary_op) (x : R) : Prop :=
  match o with
  | Abs | Sign | Recip | Relu | Selu => x <> 0
  | Sqrt | Ln | Log2 | Log10 => 0 < x
  | Asin | Acos | Atanh => -1 < x < 1
  | Acosh => 1 < x
  | Ceil | Floor => forall n, x <> IZR n
  | Round => Rabs x < 1 / 2
  | Tan => Rabs x <= 1
  | HardSigmoid | HardSilu => False
  | _ => True
  end.

(** Composition of kernels: NaN stays NaN. *)
Definition after (F G : R -> el) (x : R) : el := match F x with Fl y => G y | e => e end.

Section Chains.
Variable erf : R -> R.
(** [os] applied to [x] one after the other *)
Fixpoint chain_fun (os : list unary_op) : R -> el :=
  match os with
  | nil => fun x => Fl x
  | o :: os' => after (kernel erf o) (chain_fun os')
  end.
(** every intermediate value is a number, the last one is [y] *)
Fixpoint run_chain (os : list unary_op) (x y : R) : Prop :=
  match os with
  | nil => x = y
  | o :: os' => exists z, kernel erf o x = Fl z /\ run_chain os' z y
  end.
Fixpoint differentiable_along (os : list unary_op) (x : R) : Prop :=
  match os with
  | nil => True
  | o :: os' => (exists d, has_derivative (kernel erf o) x d) /\
      (forall z, kernel erf o x = Fl z -> differentiable_along os' z)
  end.
(** the rules of [os] applied from the last operation to the first *)
Fixpoint back_chain (os : list unary_op) (x g : R) : outcome el :=
  match os with
  | nil => Ok (Fl g)
  | o :: os' =>
      match kernel erf o x with
      | Fl z => do g' <- back_chain os' z g ; u_vjp o (Fl x) (Fl z) g'
      | _ => Panic
      end
  end.
End Chains.

(** The scalar operations that have a CPU kernel. *)
Definition served (o : scalar_op) : bool :=
  match o with RemScalar | LeakyRelu | Elu | Prelu => false | _ => true end.
