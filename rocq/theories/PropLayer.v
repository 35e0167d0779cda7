(** C96, C97: the linear layer and the recurrent layers, on the real numbers; rounding is not
    modelled here.  Tensors are [xden]: no empty axis, and not a contiguous view starting inside
    its storage (C18). *)
From Coq Require Import List Arith ZArith Lia Bool Reals Lra.
From Verif Require Import Base IndexSpec LayoutModel ViewSpec KernelModel TensorModel TensorSpec EncodeModel.
From Verif Require Import LayoutProofs LayoutProofs2 BcastProofs KernelProofs TensorProofs ElementwiseProofs NumModel DenSpec NnModel NnSpec NnProofs NnProofs4.
From Verif Require Import MatrixModel MatrixProofs MatrixProofs2 LayerModel LayerSpec LayerProofs LayerProofs2 LayerProofs3 LayerProofs4 LayerProofs5 PropNn.
Import ListNotations.
Open Scope nat_scope.

(** ** C96 *)
(** Linear: x Wt + b along the last axis, for any number of leading axes (at most 2 if the
    product goes to BLAS, else 17).  A matrix input of BLAS must have a layout that BLAS can be
    told about ([fit]: row-major and transposed matrices do). *)
Theorem C96_linear_partial : forall e blas w b x d s k n W v X, env_ok e -> mat_env_ok e -> allowed NoBool d = true ->
  xmat w d n k W -> xbias b d n v -> xden x d (s ++ [k]) (fun i => Fin (X i)) ->
  (length s = 1 -> fit blas x) -> length s <= (if by_blas blas d then 2 else 17) ->
  exists r, linear e blas w b x = Ok r /\
    xden r d (s ++ [n]) (fun i => Fin (affine W v k (fun q => X (removelast i ++ [q])) (last i 0))).
Proof. intros e blas w b x d s k n W v X He Hm. now apply linear_ok. Qed.
Print Assumptions C96_linear_partial.

Lemma e1_mat : mat_env_ok e1. Proof. apply seq_mat_env_ok. auto. Qed.
(** F32 with BLAS and two batch axes: a 1x1 weight of 1 exchanges two entries of a [2;2;1;1] input. *)
Theorem C96_batch_axes_refuted : forall a b c d, exists r,
  linear e1 true (xt [1; 1] [1%R]) None (xt [2; 2; 1; 1] [a; b; c; d]) = Ok r /\
  xden r F32 [2; 2; 1; 1] (fun i => Fin (nth (ravel [2; 2; 1; 1] i) [a; c; b; d] 0%R)).
Proof.
  intros a b c d.
  set (q := [(0 + a * 1)%R; (0 + c * 1)%R; (0 + b * 1)%R; (0 + d * 1)%R]).
  exists (xt [2; 2; 1; 1] q). split; [lazy -[IZR Rplus Rmult]; reflexivity|].
  replace [a; c; b; d] with q by (unfold q; repeat f_equal; ring).
  apply xt_den; [reflexivity|repeat constructor].
Qed.
Print Assumptions C96_batch_axes_refuted.

(** a 2x3 matrix times the transpose of [[1,0,2],[0,1,-1]], plus [10,20] *)
Example C96_example : exists r f,
  linear e1 true (xt [2; 3] [1; 0; 2; 0; 1; -1]%R) (Some (xt [2] [10; 20]%R)) (xt [2; 3] [1; 2; 3; 4; 5; 6]%R) = Ok r /\
  xden r F32 [2; 2] (fun i => Fin (f i)) /\
  f [0; 0] = 17%R /\ f [0; 1] = 19%R /\ f [1; 0] = 26%R /\ f [1; 1] = 19%R.
Proof.
  destruct (C96_linear_partial e1 true (xt [2; 3] [1; 0; 2; 0; 1; -1]%R) (Some (xt [2] [10; 20]%R)) (xt [2; 3] [1; 2; 3; 4; 5; 6]%R)
    F32 [2] 3 2 (fun i j => nth (i * 3 + j) [1; 0; 2; 0; 1; -1]%R 0%R) (fun i => nth i [10; 20]%R 0%R)
    (fun i => nth (ravel [2; 3] i) [1; 2; 3; 4; 5; 6]%R 0%R) e1_ok e1_mat eq_refl) as [r [E D]].
  - eapply xden_ext; [apply xt_den; [reflexivity|repeat constructor]|]. intros i V. apply in_all_idx in V. vm_compute in V.
    repeat (destruct V as [<-|V]; [reflexivity|]); destruct V.
  - eapply xden_ext; [apply xt_den; [reflexivity|repeat constructor]|]. intros i V. apply in_all_idx in V. vm_compute in V.
    repeat (destruct V as [<-|V]; [reflexivity|]); destruct V.
  - apply xt_den; [reflexivity|repeat constructor].
  - intros _ _. left. cbn. lia.
  - cbn. lia.
  - exists r. eexists. split; [exact E|]. split; [exact D|].
    repeat split; lazy -[IZR Rplus Rmult]; lra.
Qed.

(** ** C97 *)
(** One step of each cell. *)
Theorem C97_rnn_step : forall e blas relu c d m k h w x s X H, env_ok e -> mat_env_ok e -> is_float d = true ->
  xcell c d k h 1 w -> xmat x d m k X -> xmat s d m h H -> fit blas x -> fit blas s ->
  exists r, rnn_step e blas relu c x s = Ok r /\
    xmat r d m h (fun b j => rnn_next (if relu then Rmax 0 else tanh) w k h (X b) (H b) j).
Proof.
  intros e blas relu c d m k h w x s X H He Hm F Xc Xx Xs Fx Fs.
  destruct (rnn_step_ok e He Hm blas relu c d m k h w x s X H F Xc Xx Xs Fx Fs) as [r [E [_ D]]]. exists r. auto.
Qed.
Print Assumptions C97_rnn_step.
Theorem C97_lstm_step : forall e blas cl d m k h w x s c X H C, env_ok e -> mat_env_ok e -> is_float d = true ->
  xcell cl d k h 4 w -> xmat x d m k X -> xmat s d m h H -> xmat c d m h C -> fit blas x -> fit blas s ->
  exists h' c', lstm_step e blas h cl x s c = Ok (h', c') /\
    xmat h' d m h (fun b j => lstm_h w k h (X b) (H b) (C b) j) /\
    xmat c' d m h (fun b j => lstm_c w k h (X b) (H b) (C b) j).
Proof.
  intros e blas cl d m k h w x s c X H C He Hm F Xc Xx Xs Xcs Fx Fs.
  destruct (lstm_step_ok e He Hm blas cl d m k h w x s c X H C F Xc Xx Xs Xcs Fx Fs) as [h' [c' [E [_ [_ D]]]]]. exists h', c'. auto.
Qed.
Print Assumptions C97_lstm_step.
Theorem C97_gru_step : forall e blas c d m k h w x s X H, env_ok e -> mat_env_ok e -> is_float d = true ->
  xcell c d k h 3 w -> xmat x d m k X -> xmat s d m h H -> fit blas x -> fit blas s ->
  exists r, gru_step e blas h c x s = Ok r /\ xmat r d m h (fun b j => gru_next w k h (X b) (H b) j).
Proof.
  intros e blas c d m k h w x s X H He Hm F Xc Xx Xs Fx Fs.
  destruct (gru_step_ok e He Hm blas c d m k h w x s X H F Xc Xx Xs Fx Fs) as [r [E [_ D]]]. exists r. auto.
Qed.
Print Assumptions C97_gru_step.

(** Whole sequences through a stack of layers, batch first or not, from a given or a zero
    state: the last layer's output at every time, and every layer's final state.  No condition
    on layouts: every step's input is a fresh tensor. *)
Theorem C97_rnn : forall e blas (relu : bool) cells ws d k h T B (bf : bool) input X h0 H0, env_ok e -> mat_env_ok e ->
  is_float d = true -> cells <> [] -> xcells cells d k h 1 ws ->
  (if bf then xcube input d B T k (fun b t => X t b) else xcube input d T B k X) ->
  xinit h0 d (length cells) B h H0 ->
  let next := sized (rnn_next_m (if relu then Rmax 0 else tanh) h) k h ws in
  let st0 := map H0 (seq 0 (length cells)) in
  exists o hn, rnn_forward e blas relu cells h bf input h0 = Ok (o, hn) /\
    (if bf then xcube o d B T h (fun b t => output_at (fun m => m) next X st0 t b)
     else xcube o d T B h (output_at (fun m => m) next X st0)) /\
    xcube hn d (length cells) B h (fun l => nth l (states_at (fun m => m) next X st0 T) (fun _ _ => 0%R)).
Proof.
  intros e blas relu cells ws d k h T B bf input X h0 H0 He Hm F NE Xc Xi Xh.
  exact (rnn_forward_ok e He Hm blas relu cells ws d k h T B bf input X h0 H0 F NE Xc Xi Xh).
Qed.
Print Assumptions C97_rnn.
Theorem C97_gru : forall e blas cells ws d k h T B (bf : bool) input X h0 H0, env_ok e -> mat_env_ok e ->
  is_float d = true -> cells <> [] -> xcells cells d k h 3 ws ->
  (if bf then xcube input d B T k (fun b t => X t b) else xcube input d T B k X) ->
  xinit h0 d (length cells) B h H0 ->
  let next := sized (gru_next_m h) k h ws in
  let st0 := map H0 (seq 0 (length cells)) in
  exists o hn, gru_forward e blas cells h bf input h0 = Ok (o, hn) /\
    (if bf then xcube o d B T h (fun b t => output_at (fun m => m) next X st0 t b)
     else xcube o d T B h (output_at (fun m => m) next X st0)) /\
    xcube hn d (length cells) B h (fun l => nth l (states_at (fun m => m) next X st0 T) (fun _ _ => 0%R)).
Proof.
  intros e blas cells ws d k h T B bf input X h0 H0 He Hm F NE Xc Xi Xh.
  exact (gru_forward_ok e He Hm blas cells ws d k h T B bf input X h0 H0 F NE Xc Xi Xh).
Qed.
Print Assumptions C97_gru.
Theorem C97_lstm : forall e blas cells ws d k h T B (bf : bool) input X h0 c0 H0 C0, env_ok e -> mat_env_ok e ->
  is_float d = true -> cells <> [] -> xcells cells d k h 4 ws ->
  (if bf then xcube input d B T k (fun b t => X t b) else xcube input d T B k X) ->
  xinit h0 d (length cells) B h H0 -> xinit c0 d (length cells) B h C0 ->
  let next := sized (lstm_next_m h) k h ws in
  let st0 := map (fun l => (H0 l, C0 l)) (seq 0 (length cells)) in
  exists o hn cn, lstm_forward e blas cells h bf input h0 c0 = Ok (o, hn, cn) /\
    (if bf then xcube o d B T h (fun b t => output_at fst next X st0 t b)
     else xcube o d T B h (output_at fst next X st0)) /\
    xcube hn d (length cells) B h (fun l => nth l (map fst (states_at fst next X st0 T)) (fun _ _ => 0%R)) /\
    xcube cn d (length cells) B h (fun l => nth l (map snd (states_at fst next X st0 T)) (fun _ _ => 0%R)).
Proof.
  intros e blas cells ws d k h T B bf input X h0 c0 H0 C0 He Hm F NE Xc Xi Xh Xc0.
  exact (lstm_forward_ok e He Hm blas cells ws d k h T B bf input X h0 c0 H0 C0 F NE Xc Xi Xh Xc0).
Qed.
Print Assumptions C97_lstm.

Ltac entries := eapply xden_ext; [apply xt_den; [reflexivity|repeat constructor]|]; intros i V; apply in_all_idx in V; vm_compute in V;
    repeat (destruct V as [<-|V]; [reflexivity|]); destruct V.
Ltac rmax := repeat match goal with |- context [Rmax 0 ?x] =>
  lazymatch x with context [Rmax] => fail | _ => rewrite (Rmax_right 0 x) by lra end end.
(** Two ReLU layers with weights 1 (input), 2 (state), bias 1 in the first, on the sequence 3, 5:
    the first layer gives 4, 14; the second 4, 22. *)
Definition ex_cell (b : R) : cell := mkCell (xt [1; 1] [1%R]) (xt [1; 1] [2%R]) (Some (xt [1] [b])) None.
Definition ex_w (b : R) : weights := mkW (fun _ _ => 1%R) (fun _ _ => 2%R) (fun _ => b) (fun _ => 0%R).
Example C97_example : exists o hn X,
  rnn_forward e1 true true [ex_cell 1; ex_cell 0] 1 true (xt [1; 2; 1] [3; 5]%R) None = Ok (o, hn) /\
  xcube o F32 1 2 1 X /\ X 0 0 0 = 4%R /\ X 0 1 0 = 22%R /\
  xcube hn F32 2 1 1 (fun l _ _ => nth l [14; 22]%R 0%R).
Proof.
  destruct (C97_rnn e1 true true [ex_cell 1; ex_cell 0] [ex_w 1; ex_w 0] F32 1 1 2 1 true (xt [1; 2; 1] [3; 5]%R)
    (fun t _ _ => nth t [3; 5]%R 0%R) None (fun _ _ _ => 0%R) e1_ok e1_mat eq_refl ltac:(discriminate)) as [o [hn [E [Xo Xh]]]].
  - assert (Q : forall b, xcell (ex_cell b) F32 1 1 1 (ex_w b)).
    { intros b. unfold xcell, ex_cell, ex_w. cbn [w_ih w_hh b_ih b_hh W_ih W_hh B_ih B_hh xbias].
      split; [entries|]. split; [entries|]. split; [entries|]. auto. }
    cbn [xcells]. auto.
  - entries.
  - intros l b j. reflexivity.
  - eexists o, hn, _. split; [exact E|]. split; [exact Xo|].
    split; [|split].
    + lazy -[Rmax IZR Rplus Rmult]. rmax. lra.
    + lazy -[Rmax IZR Rplus Rmult]. rmax. lra.
    + eapply xden_ext; [exact Xh|]. intros i V. apply in_all_idx in V. vm_compute in V.
      repeat (destruct V as [<-|V]; [f_equal; lazy -[Rmax IZR Rplus Rmult]; rmax; lra|]); destruct V.
Qed.
