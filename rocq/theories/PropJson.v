(** Properties C120 and C121: tensors as JSON. *)
From Coq Require Import List Arith ZArith Bool SpecFloat String Lia.
From Verif Require Import Base IndexSpec LayoutModel ViewSpec KernelModel TensorModel TensorSpec TensorProofs EncodeModel JsonModel JsonSpec JsonProofs.
From Verif Require ScalarModel ScalarSpec.
Import ListNotations.
Open Scope Z_scope.

(** C120: a tensor without NaN and infinities is restored, under the conditions on views of C12. *)
Theorem C120_save_load_partial : forall checked f8 d t, f8_ok f8 -> plainly_stored t ->
  holds_only (cell_ok d) t -> holds_only finite t -> sizes_fit (map Z.of_nat (tshape t)) ->
  exists j r, tensor_to_json d t = Ok j /\ json_to_tensor checked f8 j = Ok r /\ restored d t r.
Proof. exact save_load. Qed.
Print Assumptions C120_save_load_partial.

(** Among these tensors exactly those without NaN and infinities can be loaded again. *)
Theorem C120_finite_iff_partial : forall checked f8 d t j, f8_ok f8 -> plainly_stored t ->
  holds_only (cell_ok d) t -> sizes_fit (map Z.of_nat (tshape t)) -> tensor_to_json d t = Ok j ->
  (holds_only finite t -> exists r, json_to_tensor checked f8 j = Ok r) /\
  (~ holds_only finite t -> exists e, json_to_tensor checked f8 j = Err e).
Proof.
  intros checked f8 d t j H P V S E. split; intros F.
  - destruct (save_load checked f8 d t H P V F S) as (j' & r & E' & L & _). exists r. congruence.
  - destruct (save_lost checked f8 d t P V F) as (j' & e & E' & L). exists e. congruence.
Qed.
Print Assumptions C120_finite_iff_partial.

(** Several tensors by name. *)
Theorem C120_many_partial : forall checked f8 l, f8_ok f8 ->
  Forall (fun x => let '(d, t) := snd x in plainly_stored t /\ holds_only (cell_ok d) t /\ holds_only finite t /\
                   sizes_fit (map Z.of_nat (tshape t))) l ->
  exists j rs, serialize_many l = Ok j /\ deserialize_many checked f8 j = Ok rs /\
    Forall2 (fun x y => fst x = fst y /\ restored (fst (snd x)) (snd (snd x)) (snd y)) l rs.
Proof.
  intros checked f8 l H F. destruct (save_many checked f8 H l F) as (j & rs & E1 & E2 & R). exists (Obj j), rs.
  unfold serialize_many, deserialize_many. rewrite E1. cbn [bind as_object ok_or]. auto.
Qed.
Print Assumptions C120_many_partial.

(** The 8-bit formats: a crate as assumed exists. *)
Lemma f8_exists : f8_ok f8_example.
Proof.
  intros d x [-> | ->] V N; destruct x as [s|s| |s m e]; try contradiction N; try reflexivity.
  - destruct V as (M & E & C & X).
    assert (Em : e = -9 \/ e = -8 \/ e = -7 \/ e = -6 \/ e = -5 \/ e = -4 \/ e = -3 \/ e = -2 \/ e = -1 \/ e = 0 \/ e = 1 \/ e = 2 \/ e = 3 \/ e = 4 \/ e = 5) by lia.
    assert (Mm : (m = 1 \/ m = 2 \/ m = 3 \/ m = 4 \/ m = 5 \/ m = 6 \/ m = 7 \/ m = 8 \/ m = 9 \/ m = 10 \/ m = 11 \/ m = 12 \/ m = 13 \/ m = 14 \/ m = 15)%positive) by lia.
    repeat destruct Em as [-> |Em]; try subst e; repeat destruct Mm as [-> |Mm]; try subst m; try (exfalso; lia); destruct s; reflexivity.
  - cbn [in_format] in V. cbn [f8_example]. apply widen_narrow; auto; discriminate.
Qed.

(** C120 is false for a tensor with an infinity or NaN (saved as null, refused when loading) ... *)
Theorem C120_infinity_refuted : exists t, plainly_stored t /\ holds_only (cell_ok F32) t /\
  exists j, tensor_to_json F32 t = Ok j /\ forall checked, json_to_tensor checked f8_example j = Err EInternal.
Proof.
  exists (mkT [CF (S754_infinity false)] (from_shape [1%nat])). split; [|split].
  - split; [now apply from_shape_good|]. split; [reflexivity|discriminate].
  - intros i a Vi E. destruct i as [|x [|y i]]; try (destruct Vi; contradiction); try contradiction.
    destruct Vi as [Vx _]. assert (x = 0%nat) by lia. subst x. cbn in E. injection E as <-. reflexivity.
  - eexists. split; [reflexivity|]. intros []; reflexivity.
Qed.
Print Assumptions C120_infinity_refuted.

(** ... and for a slice, of which the whole parent is written. *)
Theorem C120_slice_refuted :
  ~ (forall t o u j, plainly_stored t -> holds_only (cell_ok U8) t -> regular o (tshape t) -> t_view (CI 0) o t = Ok u ->
     tensor_to_json U8 u = Ok j -> exists r, json_to_tensor false f8_example j = Ok r).
Proof.
  intro H.
  destruct (H (mkT [CI 10; CI 11; CI 12; CI 13] (from_shape [4%nat])) (VSlice 0 1 (Some 3%Z) 1)
    (mkT [CI 10; CI 11; CI 12; CI 13] (mkLayout [2] [1] 1)%nat)
    (Obj [("shape", Arr [Num (PosInt 2)]); ("dtype", Str "u8");
          ("data", Arr [Num (PosInt 10); Num (PosInt 11); Num (PosInt 12); Num (PosInt 13)])])%string) as [r R]; try reflexivity.
  - split; [now apply from_shape_good|]. split; [reflexivity|discriminate].
  - intros i a Vi E. destruct i as [|x [|y i]]; try (destruct Vi; contradiction); try contradiction.
    destruct Vi as [Vx _]. destruct x as [|[|[|[|x]]]]; try lia; cbn in E; injection E as <-;
      (split; [reflexivity|split; [discriminate|unfold ScalarSpec.fits; cbn; lia]]).
  - discriminate R.
Qed.
Print Assumptions C120_slice_refuted.

(** 0.1 as f32, 1.5 and -448 as f8e4m3, -2^63 as i64. *)
Example C120_ex :
  (do j <- tensor_to_json F32 (mkT [CF (S754_finite false 13421773 (-27)); CF (S754_zero true)] (from_shape [2%nat])) ;
   json_to_tensor true f8_example j) = Ok (mkLoaded F32 [2] [CF (S754_finite false 13421773 (-27)); CF (S754_zero true)]) /\
  (do j <- tensor_to_json F8E4M3 (mkT [CF (S754_finite false 12 (-3)); CF (S754_finite true 14 5)] (from_shape [2; 1]%nat)) ;
   json_to_tensor true f8_example j) = Ok (mkLoaded F8E4M3 [2; 1] [CF (S754_finite false 12 (-3)); CF (S754_finite true 14 5)]) /\
  (do j <- tensor_to_json I64 (mkT [CI (- 2 ^ 63)] (from_shape [])) ;
   json_to_tensor true f8_example j) = Ok (mkLoaded I64 [] [CI (- 2 ^ 63)]) /\
  in_format F32 (S754_finite false 13421773 (-27)) /\ in_format F8E4M3 (S754_finite true 14 5).
Proof. repeat split; try reflexivity; cbn; lia. Qed.

(** C121: what is loaded has the shape and dtype that the file names, as many elements as the file, and as the shape
    says if its size fits 64 bits; an entry in range is kept exactly, and a float to nearest. *)
Theorem C121_load_partial : forall checked f8 v r, json_to_tensor checked f8 v = Ok r ->
  exists obj name vs, v = Obj obj /\ get "shape" obj = Some (Arr (map (fun n => Num (PosInt n)) (ldims r))) /\
    get "dtype" obj = Some (Str name) /\ to_lowercase name = dname (ldtype r) /\ get "data" obj = Some (Arr vs) /\
    List.length vs = List.length (ldata r) /\
    (Forall (fun d => 0 <= d) (ldims r) -> sizes_fit (ldims r) -> product (ldims r) = Z.of_nat (List.length vs)) /\
    forall k w c, nth_error vs k = Some w -> nth_error (ldata r) k = Some c -> wf_number w -> ~ outside (ldtype r) w -> keeps (ldtype r) w c.
Proof. exact load_keeps. Qed.
Print Assumptions C121_load_partial.

(** Without overflow checks loading does not panic, whatever the file. *)
Theorem C121_no_panic_partial : forall f8 v, json_to_tensor false f8 v <> Panic.
Proof. exact load_total. Qed.
Print Assumptions C121_no_panic_partial.

Definition file (dims : list Z) (name : string) (data : list json) : json :=
  Obj [("shape", Arr (map (fun n => Num (PosInt n)) dims)); ("dtype", Str name); ("data", Arr data)]%string.
(** C121 is false for integers outside the type: 300 is loaded as the u8 44, -200 as the i8 56 ... *)
Theorem C121_range_refuted : forall checked,
  json_to_tensor checked f8_example (file [1] "u8" [Num (PosInt 300)]) = Ok (mkLoaded U8 [1] [CI 44]) /\
  json_to_tensor checked f8_example (file [1] "i8" [Num (NegInt (-200))]) = Ok (mkLoaded I8 [1] [CI 56]) /\
  outside U8 (Num (PosInt 300)).
Proof.
  intros []; (split; [reflexivity|]); (split; [reflexivity|]); (split; [reflexivity|]); (split; [discriminate|]);
    exists 300; split; try reflexivity; unfold ScalarSpec.fits; cbn; lia.
Qed.
Print Assumptions C121_range_refuted.

(** ... and for sizes whose product leaves 64 bits: a tensor of 2^64 elements with no data is accepted, or the program
    panics. *)
Theorem C121_size_refuted :
  json_to_tensor false f8_example (file [2 ^ 32; 2 ^ 32] "f32" []) = Ok (mkLoaded F32 [2 ^ 32; 2 ^ 32] []) /\
  product [2 ^ 32; 2 ^ 32] <> 0 /\ json_to_tensor true f8_example (file [2 ^ 32; 2 ^ 32] "f32" []) = Panic.
Proof. split; [reflexivity|]. split; [discriminate|reflexivity]. Qed.
Print Assumptions C121_size_refuted.

Example C121_ex :
  json_to_tensor true f8_example (file [1; 3] "F32" [Num (Float (S754_finite false 7205759403792794 (-56))); Num (PosInt 3); Num (NegInt (-1))])
    = Ok (mkLoaded F32 [1; 3] [CF (S754_finite false 13421773 (-27)); CF (S754_finite false 12582912 (-22)); CF (S754_finite true 8388608 (-23))]) /\
  json_to_tensor true f8_example (file [1] "u8" [Num (Float (S754_finite false 1 1))]) = Err EInternal /\
  json_to_tensor true f8_example (file [2] "bool" [JBool true]) = Err EShape /\
  keeps U8 (Num (PosInt 7)) (CI 7).
Proof. repeat split; try reflexivity; try discriminate. Qed.
