(** What the optimizers are documented to compute, for one element of one
    parameter.  A history lists, oldest first, the learning rate and the gradient
    of each step. *)
From Coq Require Import List Arith Bool.
Import ListNotations.

Section Spec.
Context {T : Type}.
Variables (zero one : T) (add sub mul div : T -> T -> T) (sqrt : T -> T) (of_nat : nat -> T).

(** [b * b * … * b], [n] factors *)
Fixpoint pw (b : T) (n : nat) : T :=
  match n with 0 => one | 1 => b | S n' => mul (pw b n') b end.

(** SGD: x_t = x_{t-1} - lr g_t *)
Definition sgd_spec (x : T) (h : list (T * T)) : T :=
  fold_left (fun x lg => sub x (mul (snd lg) (fst lg))) h x.

(** exponential averages: m_t = b m_{t-1} + (1-b) g_t, v_t = b v_{t-1} + (1-b) g_t^2 *)
Definition mom1 (b : T) (gs : list T) : T := fold_left (fun m g => add (mul m b) (mul g (sub one b))) gs zero.
Definition mom2 (b : T) (gs : list T) : T := fold_left (fun v g => add (mul v b) (mul (mul g g) (sub one b))) gs zero.
(** the published step m^/(sqrt(v^) + eps), with m^ = m/(1-b1^t) and v^ = v/(1-b2^t) *)
Definition adam_dir (b1 b2 eps : T) (gs : list T) : T :=
  let t := length gs in
  div (div (mom1 b1 gs) (sub one (pw b1 t))) (add (sqrt (div (mom2 b2 gs) (sub one (pw b2 t)))) eps).

(** [rh]: the history, latest first *)
Fixpoint adamw_rev (b1 b2 eps wd x : T) (rh : list (T * T)) : T :=
  match rh with
  | [] => x
  | (lr, _) :: past =>
    sub (mul (adamw_rev b1 b2 eps wd x past) (sub one (mul lr wd)))
        (mul (adam_dir b1 b2 eps (rev (map snd rh))) lr)
  end.
Definition adamw_spec (b1 b2 eps wd x : T) (h : list (T * T)) : T := adamw_rev b1 b2 eps wd x (rev h).
Fixpoint adam_rev (b1 b2 eps x : T) (rh : list (T * T)) : T :=
  match rh with
  | [] => x
  | (lr, _) :: past => sub (adam_rev b1 b2 eps x past) (mul (adam_dir b1 b2 eps (rev (map snd rh))) lr)
  end.
Definition adam_spec (b1 b2 eps x : T) (h : list (T * T)) : T := adam_rev b1 b2 eps x (rev h).

(** what Adam does instead: b^(t+1) in the corrections, and the correction applied
    to the learning rate as well *)
Definition adam_code_dir (b1 b2 eps : T) (gs : list T) : T :=
  let t := S (length gs) in
  div (div (mom1 b1 gs) (sub one (pw b1 t))) (add (sqrt (div (mom2 b2 gs) (sub one (pw b2 t)))) eps).
Definition adam_code_lr (b1 b2 lr : T) (n : nat) : T :=
  div (mul lr (sqrt (sub one (pw b2 (S n))))) (sub one (pw b1 (S n))).
Fixpoint adam_code_rev (b1 b2 eps x : T) (rh : list (T * T)) : T :=
  match rh with
  | [] => x
  | (lr, _) :: past =>
    sub (adam_code_rev b1 b2 eps x past)
        (mul (adam_code_dir b1 b2 eps (rev (map snd rh))) (adam_code_lr b1 b2 lr (length rh)))
  end.
Definition adam_code (b1 b2 eps x : T) (h : list (T * T)) : T := adam_code_rev b1 b2 eps x (rev h).

(** Adagrad: parameter and accumulator, with the step number.
    g' = g + wd x;  v_t = v_{t-1} + g'^2;  x_t = x_{t-1} - lr/(1+(t-1)decay) g'/(sqrt(v_t)+eps) *)
Definition adagrad_next (decay eps wd : T) (s : nat * T * T) (lg : T * T) : nat * T * T :=
  let '(t, x, v) := s in
  let g := add (snd lg) (mul x wd) in
  let v' := add v (mul g g) in
  (S t, sub x (mul (div g (add (sqrt v') eps)) (div (fst lg) (add one (mul (sub (of_nat (S t)) one) decay)))), v').
Definition adagrad_spec (decay eps wd init x : T) (h : list (T * T)) : nat * T * T :=
  fold_left (adagrad_next decay eps wd) h (0, x, init).

(** RMSprop: parameter, v, momentum buffer, gradient average.
    g' = g + wd x;  v_t = a v_{t-1} + (1-a) g'^2;  centered: avg = v_t - (a ga_{t-1} + (1-a) g')^2;
    without momentum x_t = x_{t-1} - lr g'/(sqrt(avg)+eps), with momentum mu
    m_t = mu m_{t-1} + g'/(sqrt(avg)+eps), x_t = x_{t-1} - lr m_t *)
Definition rms_next (a eps wd : T) (mu : option T) (centered : bool) (s : T * T * T * T) (lg : T * T) : T * T * T * T :=
  let '(x, v, m, ga) := s in
  let g := add (snd lg) (mul x wd) in
  let v' := add (mul v a) (mul (mul g g) (sub one a)) in
  let ga' := if centered then add (mul ga a) (mul g (sub one a)) else ga in
  let avg := if centered then sub v' (mul ga' ga') else v' in
  let u := div g (add (sqrt avg) eps) in
  match mu with
  | Some mu => let m' := add (mul m mu) u in (sub x (mul m' (fst lg)), v', m', ga')
  | None => (sub x (mul u (fst lg)), v', m, ga')
  end.
Definition rms_spec (a eps wd : T) (mu : option T) (centered : bool) (x : T) (h : list (T * T)) : T * T * T * T :=
  fold_left (rms_next a eps wd mu centered) h (x, zero, zero, zero).
End Spec.
