(** The optimizers of crates/hodu_nn/src/optimizers.

    The arithmetic (of f32, f64, … or of the reals) is a parameter: [Scalar] and
    tensor elements have the same type, the dtype of the gradient.  Parameters,
    gradients and state tensors are lists of elements; the element-wise operations
    demand equal lengths (they never broadcast here, simplification).  A parameter
    occurs once in the list handed to [step].  Every operation reports how far it
    got: a failing [step] has already changed what comes before the failure. *)
From Coq Require Import List Arith Bool.
From Verif Require Import Base.
Import ListNotations.

Section Optim.
Context {T : Type}.
Variables (zero one : T) (add sub mul div : T -> T -> T) (sqrt : T -> T) (of_nat : nat -> T).
(** [x.to_f32() == 0.0] *)
Variable is_zero : T -> bool.

(** a parameter: its elements, and those of its gradient if it has one *)
Record param := mkP { p_val : list T; p_grad : option (list T) }.

Fixpoint map2 (f : T -> T -> T) (a b : list T) : list T :=
  match a, b with x :: a', y :: b' => f x y :: map2 f a' b' | _, _ => [] end.
(** element-wise operations on tensors, and with a scalar *)
Definition t2 (f : T -> T -> T) (a b : list T) : outcome (list T) :=
  if length a =? length b then Ok (map2 f a b) else Err EShape.
Definition ts (f : T -> T -> T) (a : list T) (s : T) : list T := map (fun x => f x s) a.
Definition square (a : list T) : list T := map (fun x => mul x x) a.
Definition grad (p : param) : outcome (list T) := ok_or (p_grad p) EInternal.
(** cast_memory.rs:85-102 *)
Definition set_ (p : param) (v : list T) : param := mkP v (p_grad p).
Definition zeros_like (p : param) : list T := map (fun _ => zero) (p_val p).
Definition full_like (p : param) (x : T) : list T := map (fun _ => x) (p_val p).

(* ---------- SGD: sgd.rs:16-24 ---------- *)
Definition sgd_one (lr : T) (p : param) : outcome param :=
  do g <- grad p ;
  do v <- t2 sub (p_val p) (ts mul g lr) ;
  Ok (set_ p v).
Fixpoint sgd_step (lr : T) (ps : list param) : list param * outcome unit :=
  match ps with
  | [] => ([], Ok tt)
  | p :: r =>
    match sgd_one lr p with
    | Ok p' => let (r', o) := sgd_step lr r in (p' :: r', o)
    | Err e => (ps, Err e)
    | Panic => (ps, Panic)
    end
  end.

(* ---------- Adam and AdamW: adam.rs ---------- *)

(** the hyper-parameters but the learning rate, which can be set before any step
    (adam.rs:87-89, 190-192) *)
Record adam_cfg := mkAC { beta1 : T; beta2 : T; eps : T; wdecay : T }.
Record adam := mkA { a_t : nat; a_m : list (list T); a_v : list (list T) }.
Definition adam_new : adam := mkA 0 [] [].

(** [n] more factors *)
Definition mul_loop (b : T) (n : nat) : T := Nat.iter n (fun x => mul x b) b.

(** adam.rs:69-73, 163-167 *)
Definition moment1 (c : adam_cfg) (m g : list T) : outcome (list T) :=
  t2 add (ts mul m (beta1 c)) (ts mul g (sub one (beta1 c))).
Definition moment2 (c : adam_cfg) (v g : list T) : outcome (list T) :=
  t2 add (ts mul v (beta2 c)) (ts mul (square g) (sub one (beta2 c))).

(** adam.rs:48-81, after the moments; [t] counts this step *)
Definition adam_update (c : adam_cfg) (lr : T) (t : nat) (p : param) (m v : list T) : outcome param :=
  let b1 := sub one (mul_loop (beta1 c) t) in
  let b2 := sub one (mul_loop (beta2 c) t) in
  let lr_t := div (mul lr (sqrt b2)) b1 in
  let m_hat := ts div m b1 in
  let v_hat := ts div v b2 in
  do step <- t2 div m_hat (ts add (map sqrt v_hat) (eps c)) ;
  do r <- t2 sub (p_val p) (ts mul step lr_t) ;
  Ok (set_ p r).
(** adam.rs:140-184 *)
Definition adamw_update (c : adam_cfg) (lr : T) (t : nat) (p : param) (m v : list T) : outcome param :=
  let b1 := sub one (mul_loop (beta1 c) (t - 1)) in
  let b2 := sub one (mul_loop (beta2 c) (t - 1)) in
  let m_hat := ts div m b1 in
  let v_hat := ts div v b2 in
  do step <- t2 div m_hat (ts add (map sqrt v_hat) (eps c)) ;
  do r <- t2 sub (ts mul (p_val p) (sub one (mul lr (wdecay c)))) (ts mul step lr) ;
  Ok (set_ p r).

(** adam.rs:47-82 / 139-185: the loop over [zip(zip(parameters, m), v)].  A
    failure in the middle of a parameter keeps the moments already stored. *)
Section Loop.
Variable update : param -> list T -> list T -> outcome param.
Variable c : adam_cfg.
Definition fail_of {A} (o : outcome A) : outcome unit :=
  match o with Ok _ => Ok tt | Err e => Err e | Panic => Panic end.
Fixpoint adam_loop (ps : list param) (ms vs : list (list T))
  : list param * list (list T) * list (list T) * outcome unit :=
  match ps, ms, vs with
  | p :: pr, m :: mr, v :: vr =>
    match (do g <- grad p ; do m' <- moment1 c m g ; Ok (g, m')) with
    | Ok (g, m') =>
      match moment2 c v g with
      | Ok v' =>
        match update p m' v' with
        | Ok p' => let '(ps', ms', vs', o) := adam_loop pr mr vr in (p' :: ps', m' :: ms', v' :: vs', o)
        | o => (ps, m' :: mr, v' :: vr, fail_of o)
        end
      | o => (ps, m' :: mr, vs, fail_of o)
      end
    | o => (ps, ms, vs, fail_of o)
    end
  | _, _, _ => (ps, ms, vs, Ok tt)
  end.
End Loop.

Definition is_nil {A} (l : list A) : bool := match l with [] => true | _ => false end.
(** adam.rs:33-85, 124-188 *)
Definition adam_step_with (upd1 : nat -> param -> list T -> list T -> outcome param) (c : adam_cfg)
    (s : adam) (ps : list param) : adam * list param * outcome unit :=
  let init := is_nil (a_m s) || is_nil (a_v s) in
  let m := if init then map zeros_like ps else a_m s in
  let v := if init then map zeros_like ps else a_v s in
  let t := S (a_t s) in
  let '(ps', m', v', o) := adam_loop (upd1 t) c ps m v in
  (mkA t m' v', ps', o).
Definition adam_step (c : adam_cfg) (lr : T) := adam_step_with (adam_update c lr) c.
Definition adamw_step (c : adam_cfg) (lr : T) := adam_step_with (adamw_update c lr) c.

(* ---------- Adagrad: adagrad.rs ---------- *)
Record adagrad_cfg := mkGC { g_decay : T; g_eps : T; g_wdecay : T; g_init : T }.
Record adagrad := mkG { g_t : nat; g_v : list (list T) }.
Definition adagrad_new : adagrad := mkG 0 [].
(** L85-88 (rmsprop.rs:98-101) *)
Definition add_decay (w : T) (p : param) (g : list T) : outcome (list T) :=
  if is_zero w then Ok g else t2 add g (ts mul (p_val p) w).
(** L76-100: the new parameter and accumulator; a failure after [self.v[i] = …]
    keeps the accumulator *)
Definition adagrad_one (c : adagrad_cfg) (lr : T) (t : nat) (p : param) (v : list T) : list T * outcome param :=
  match (do g <- grad p ; do g' <- add_decay (g_wdecay c) p g ; do v' <- t2 add v (square g') ; Ok (g', v')) with
  | Ok (g, v') =>
    let lr_t := div lr (add one (mul (sub (of_nat t) one) (g_decay c))) in
    (v', do u <- t2 div g (ts add (map sqrt v') (g_eps c)) ;
         do r <- t2 sub (p_val p) (ts mul u lr_t) ;
         Ok (set_ p r))
  | Err e => (v, Err e)
  | Panic => (v, Panic)
  end.
(** L75-101: [self.v[i]] panics when there are more parameters than at the first
    step *)
Fixpoint adagrad_loop (c : adagrad_cfg) (lr : T) (t : nat) (ps : list param) (vs : list (list T))
  : list param * list (list T) * outcome unit :=
  match ps, vs with
  | [], _ => ([], vs, Ok tt)
  | p :: pr, [] => (ps, [], match (do g <- grad p ; add_decay (g_wdecay c) p g) with Err e => Err e | _ => Panic end)
  | p :: pr, v :: vr =>
    let (v', o) := adagrad_one c lr t p v in
    match o with
    | Ok p' => let '(ps', vs', o') := adagrad_loop c lr t pr vr in (p' :: ps', v' :: vs', o')
    | _ => (ps, v' :: vr, fail_of o)
    end
  end.
Definition adagrad_step (c : adagrad_cfg) (lr : T) (s : adagrad) (ps : list param) : adagrad * list param * outcome unit :=
  let v := if is_nil (g_v s)
           then (if is_zero (g_init c) then map zeros_like ps else map (fun p => full_like p (g_init c)) ps)
           else g_v s in
  let t := S (g_t s) in
  let '(ps', v', o) := adagrad_loop c lr t ps v in
  (mkG t v', ps', o).

(* ---------- RMSprop: rmsprop.rs ---------- *)
Record rms_cfg := mkRC { r_alpha : T; r_eps : T; r_momentum : T; r_wdecay : T; r_centered : bool }.
(** state of one parameter.  [self.m] and [self.g_avg] exist only with momentum
    and when centered; the model always keeps them, and does not touch them
    otherwise *)
Record rms1 := mkR1 { r_v : list T; r_m : list T; r_g : list T }.
Definition rms_one (c : rms_cfg) (lr : T) (p : param) (s : rms1) : rms1 * outcome param :=
  match (do g <- grad p ; do g' <- add_decay (r_wdecay c) p g ;
         do v' <- t2 add (ts mul (r_v s) (r_alpha c)) (ts mul (square g') (sub one (r_alpha c))) ; Ok (g', v')) with
  | Ok (g, v') =>
    let s1 := mkR1 v' (r_m s) (r_g s) in
    match (if r_centered c
           then do a <- t2 add (ts mul (r_g s) (r_alpha c)) (ts mul g (sub one (r_alpha c))) ; Ok (mkR1 v' (r_m s) a)
           else Ok s1) with
    | Ok s2 =>
      match (if r_centered c then t2 sub v' (square (r_g s2)) else Ok v') with
      | Ok avg =>
        match t2 div g (ts add (map sqrt avg) (r_eps c)) with
        | Ok u =>
          if negb (is_zero (r_momentum c)) then
            match t2 add (ts mul (r_m s2) (r_momentum c)) u with
            | Ok m' => (mkR1 v' m' (r_g s2), do r <- t2 sub (p_val p) (ts mul m' lr) ; Ok (set_ p r))
            | Err e => (s2, Err e)
            | Panic => (s2, Panic)
            end
          else (s2, do r <- t2 sub (p_val p) (ts mul u lr) ; Ok (set_ p r))
        | Err e => (s2, Err e)
        | Panic => (s2, Panic)
        end
      | Err e => (s2, Err e)
      | Panic => (s2, Panic)
      end
    | Err e => (s1, Err e)
    | Panic => (s1, Panic)
    end
  | Err e => (s, Err e)
  | Panic => (s, Panic)
  end.
Fixpoint rms_loop (c : rms_cfg) (lr : T) (ps : list param) (ss : list rms1) : list param * list rms1 * outcome unit :=
  match ps, ss with
  | [], _ => ([], ss, Ok tt)
  | p :: pr, [] => (ps, [], match (do g <- grad p ; add_decay (r_wdecay c) p g) with Err e => Err e | _ => Panic end)
  | p :: pr, s :: sr =>
    let (s', o) := rms_one c lr p s in
    match o with
    | Ok p' => let '(ps', ss', o') := rms_loop c lr pr sr in (p' :: ps', s' :: ss', o')
    | _ => (ps, s' :: sr, fail_of o)
    end
  end.
(** L64-137 *)
Definition rms_step (c : rms_cfg) (lr : T) (ss : list rms1) (ps : list param) : list rms1 * list param * outcome unit :=
  let ss0 := if is_nil ss then map (fun p => mkR1 (zeros_like p) (zeros_like p) (zeros_like p)) ps else ss in
  let '(ps', ss', o) := rms_loop c lr ps ss0 in
  (ss', ps', o).

(* ---------- training ---------- *)

(** Before each step the gradients are replaced (by [backward]) and the learning
    rate may be set. *)
Definition give (ps : list param) (gs : list (option (list T))) : list param :=
  map (fun pg => mkP (p_val (fst pg)) (snd pg)) (combine ps gs).
Section Train.
Context {S : Type}.
Variable step : T -> S -> list param -> S * list param * outcome unit.
(** stops at the first failing step *)
Fixpoint train (s : S) (ps : list param) (hist : list (T * list (option (list T)))) : S * list param * outcome unit :=
  match hist with
  | [] => (s, ps, Ok tt)
  | (lr, gs) :: r =>
    let '(s', ps', o) := step lr s (give ps gs) in
    match o with Ok _ => train s' ps' r | _ => (s', ps', o) end
  end.
End Train.
End Optim.
