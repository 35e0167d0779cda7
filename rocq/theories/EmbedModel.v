(** The embedding layer: hodu_nn/src/modules/embedding.rs.

    Simplifications: floats are [xr] (NumModel.v); an index tensor is i32, here [Z], and the
    padding index, which goes through f32, is below 2^24; devices, capture and gradients are
    left out.  [embedding_dim] is the field of that name, the second axis of the weight. *)
From Coq Require Import List Arith ZArith Reals Bool.
From Verif Require Import Base LayoutModel ViewSpec KernelModel TensorModel EncodeModel SelectModel IndexModel NumModel NnModel LayerModel AttnModel.
Import ListNotations.
Open Scope nat_scope.

Section Embed.
Variable e : env.

(** tensor/ops/binary.rs [minimum] *)
Definition x_minimum := x_binary e NoBool xmin.

(** embedding.rs L123-145 [apply_max_norm], which never reads [norm_type]; L126 takes the size of the last axis, L130 uses it
    minus one as an axis *)
Definition apply_max_norm (embeddings : xtensor) (max_norm : xscalar) : outcome xtensor :=
  match rev (xshape embeddings) with
  | [] => Panic
  | 0 :: _ => Panic
  | S axis :: _ =>
    do squared <- x_mul e embeddings embeddings ;
    do squared_sum <- x_sum squared [Z.of_nat axis] true ;
    do norm <- x_sqrt e squared_sum ;
    do scale <- x_div e (mkX (fst max_norm) (t_full (xshape norm) (snd max_norm))) norm ;
    do scale <- x_minimum scale (mkX (xdtype embeddings) (t_full (xshape scale) (Fin 1))) ;
    x_mul e embeddings scale
  end.

(** L147-170 [handle_padding_idx] *)
Definition handle_padding_idx (embeddings : xtensor) (indices : tensor Z) (padding_idx : nat) : outcome xtensor :=
  do m <- t_binary e 0%Z 0%Z (Fin 0) (fun v w => xbool (v =? w)%Z) indices
            (t_full (lshape (tlay indices)) (Z.of_nat padding_idx)) ;
  do mask <- x_view (VUnsqueeze (-1)) (mkX BOOL m) ;
  let one := mkX (xdtype embeddings) (t_full (xshape mask) (Fin 1)) in
  let zero := mkX (xdtype embeddings) (t_full (xshape mask) (Fin 0)) in
  do float_mask <- x_where3 e mask zero one ;
  x_mul e embeddings float_mask.

(** L88-121 [forward] *)
Definition embedding (weight : xtensor) (embedding_dim : nat) (padding_idx : option nat) (max_norm : option xscalar)
    (input : tensor Z) : outcome xtensor :=
  do flat_input <- t_view 0%Z VFlatten input ;
  do sel <- t_index_select (Fin 0) (Fin 0) (xdata weight) 0 flat_input ;
  let flat_output := mkX (xdtype weight) sel in
  do flat_output <- (match max_norm with Some m => apply_max_norm flat_output m | None => Ok flat_output end) ;
  do flat_output <- (match padding_idx with
    | Some p => handle_padding_idx flat_output flat_input p
    | None => Ok flat_output end) ;
  x_view (VReshape (lshape (tlay input) ++ [embedding_dim])) flat_output.
End Embed.
