From Coq Require Import List Arith ZArith Bool Lia.
From Verif Require Import Base IndexSpec LayoutModel KernelModel TensorModel TensorSpec.
From Verif Require Import ScanModel CountModel ConvModel ConvSpec ConvProofs TileSpec LaunchModel LaunchSpec CudaConvModel CudaConvModel3.
Import ListNotations.
Local Open Scope nat_scope.

Lemma elementwise_ext : forall B sched n (f g : nat -> option B) out, (forall i, f i = g i) -> elementwise sched n f out = elementwise sched n g out.
Proof.
  intros B sched n f g out E. unfold elementwise, stores. f_equal. generalize (log (execute Short n (sched n))). intro l. revert out.
  induction l as [|i l IH]; intro out; [reflexivity|]. cbn [fold_left]. now rewrite E, IH.
Qed.
Lemma loopO_hom : forall X S S' (h : S' -> S) (g : X -> S -> option S) (f : X -> S' -> option S') xs s,
  (forall x s, g x (h s) = option_map h (f x s)) -> loopO g xs (h s) = option_map h (loopO f xs s).
Proof.
  intros X S S' h g f xs s0 H. revert s0. induction xs as [|x xs IH]; intro s; [reflexivity|]. cbn [loopO]. rewrite H.
  destruct (f x s) as [s'|]; [apply IH|reflexivity].
Qed.

(** An accumulator that keeps the pairs *)
Section Free.
Context {A T : Type} (sched : nat -> list nat) (up : A -> T) (down : T -> A) (zero : T) (step : T -> T -> T -> T).
Definition free := (T + list (T * T))%type.
Definition pairs (a : free) : list (T * T) := match a with inl _ => [] | inr l => l end.
Definition fadd (a b : free) : free := inr (pairs a ++ pairs b).
Definition fmul (a b : free) : free := match a, b with inl x, inl w => inr [(x, w)] | _, _ => inr [] end.
Definition value (a : free) : T := fold_left (fun s p => step s (fst p) (snd p)) (pairs a) zero.

Lemma step_free : forall nd (t w : tensor A) s p d,
  cuda_t_conv_step sched up down zero step nd t w s p d =
  cuda_t_conv sched (fun x => inl (up x)) (fun a => down (value a)) (inr []) fadd fmul nd t w s p d.
Proof.
  intros nd t w s p d. unfold cuda_t_conv_step, cuda_t_conv. cbv zeta.
  do 3 (destruct (negb _); [reflexivity|]). destruct (conv_sizes _ _ _ _ _) as [o| |]; try reflexivity. cbn [bind].
  enough (E : forall md out, cuda_conv_with sched down zero (cuda_conv_step up step) nd (tstore t) (tstore w) out md =
    cuda_conv_with sched (fun a => down (value a)) (inr []) (cuda_conv_term (fun x => inl (up x)) fadd fmul) nd (tstore t) (tstore w) out md)
    by (now rewrite E).
  intros md out. unfold cuda_conv_with. destruct (read_conv nd md) as [m|]; [|reflexivity]. cbn [obind]. apply elementwise_ext. intro i.
  destruct (c_coords _ i []) as [c|]; [|reflexivity]. cbn [obind].
  match goal with |- obind (loopO ?g ?xs _) _ = obind (loopO ?f _ ?s0) _ =>
    change zero with (value (inr [])); rewrite (loopO_hom _ _ _ value g f xs s0); [now destruct (loopO f xs s0)|] end.
  intros ic a. apply loopO_hom. intros k a'. unfold cuda_conv_step, cuda_conv_term, sum_product.
  destruct (c_pos _ _ _ _ _ _) as [j|]; [|reflexivity]. destruct (nth_error (tstore t) _); [|reflexivity]. cbn [obind].
  destruct (nth_error (tstore w) _); [|reflexivity]. cbn [obind option_map fmul]. unfold value, fadd. cbn [pairs]. now rewrite fold_left_app.
Qed.
Lemma step_t_free : forall nd (t w : tensor A) s p e d,
  cuda_t_conv_transpose_step sched up down zero step nd t w s p e d =
  cuda_t_conv_transpose sched (fun x => inl (up x)) (fun a => down (value a)) (inr []) fadd fmul nd t w s p e d.
Proof.
  intros nd t w s p e d. unfold cuda_t_conv_transpose_step, cuda_t_conv_transpose. cbv zeta.
  do 3 (destruct (negb _); [reflexivity|]). destruct (conv_t_sizes _ _ _ _ _ _) as [o'| |]; try reflexivity. cbn [bind].
  destruct (conv_sizes _ _ _ _ _) as [o| |]; try reflexivity. cbn [bind].
  enough (E : forall md out, cuda_conv_with sched down zero (cuda_conv_t_step up step) nd (tstore t) (tstore w) out md =
    cuda_conv_with sched (fun a => down (value a)) (inr []) (cuda_conv_t_term (fun x => inl (up x)) fadd fmul) nd (tstore t) (tstore w) out md)
    by (now rewrite E).
  intros md out. unfold cuda_conv_with. destruct (read_conv nd md) as [m|]; [|reflexivity]. cbn [obind]. apply elementwise_ext. intro i.
  destruct (c_coords _ i []) as [c|]; [|reflexivity]. cbn [obind].
  match goal with |- obind (loopO ?g ?xs _) _ = obind (loopO ?f _ ?s0) _ =>
    change zero with (value (inr [])); rewrite (loopO_hom _ _ _ value g f xs s0); [now destruct (loopO f xs s0)|] end.
  intros ic a. apply loopO_hom. intros k a'. unfold cuda_conv_t_step, cuda_conv_t_term, sum_product.
  destruct (c_back _ _ _ _ _ _) as [j|]; [|reflexivity]. destruct (nth_error (tstore t) _); [|reflexivity]. cbn [obind].
  destruct (nth_error (tstore w) _); [|reflexivity]. cbn [obind option_map fmul]. unfold value, fadd. cbn [pairs]. now rewrite fold_left_app.
Qed.
Lemma fold_pairs : forall l a, pairs (fold_left fadd l a) = pairs a ++ flat_map pairs l.
Proof.
  induction l as [|x l IH]; intro a; cbn [fold_left flat_map]; [now rewrite app_nil_r|].
  rewrite IH. cbn [fadd pairs]. now rewrite app_assoc.
Qed.
Lemma flat_map_flat : forall X Y Z (f : Y -> list Z) (g : X -> list Y) l, flat_map f (flat_map g l) = flat_map (fun x => flat_map f (g x)) l.
Proof. induction l as [|x l IH]; [reflexivity|]. cbn [flat_map]. now rewrite flat_map_app, IH. Qed.
Lemma terms_pairs : forall s p d (X W : list nat -> T) C ker isp b oc o,
  flat_map pairs (conv_terms fmul s p d (fun i => inl (X i)) (fun i => inl (W i)) C ker isp b oc o) =
  flat_map (fun ic => flat_map (fun k => flat_map (fun i =>
    if meets s p d o k i then [(X (b :: ic :: i), W (oc :: ic :: k))] else []) (all_idx isp)) (all_idx ker)) (seq 0 C).
Proof.
  intros. unfold conv_terms. rewrite flat_map_flat. apply flat_map_ext. intro ic. rewrite flat_map_flat. apply flat_map_ext. intro k.
  rewrite flat_map_flat. apply flat_map_ext. intro i. now destruct (meets s p d o k i).
Qed.
Lemma terms_t_pairs : forall s p d (X W : list nat -> T) (wi : nat -> list nat -> list nat) C ker isp b o,
  flat_map pairs (flat_map (fun ic => flat_map (fun k => flat_map (fun i =>
    if meets s p d i k o then [fmul (inl (X (b :: ic :: i))) (inl (W (wi ic k)))] else []) (all_idx isp)) (all_idx ker)) (seq 0 C)) =
  flat_map (fun ic => flat_map (fun k => flat_map (fun i =>
    if meets s p d i k o then [(X (b :: ic :: i), W (wi ic k))] else []) (all_idx isp)) (all_idx ker)) (seq 0 C).
Proof.
  intros. rewrite flat_map_flat. apply flat_map_ext. intro ic. rewrite flat_map_flat. apply flat_map_ext. intro k.
  rewrite flat_map_flat. apply flat_map_ext. intro i. now destruct (meets s p d i k o).
Qed.
End Free.
