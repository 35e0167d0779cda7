(** Properties C12-C16: reading back, bytes, dtypes, nested arrays. *)
From Coq Require Import String Ascii.
From Coq Require Import List Arith ZArith Lia Bool.
From Verif Require Import Base IndexSpec LayoutModel ViewSpec LayoutProofs KernelModel KernelProofs.
From Verif Require Import TensorModel TensorSpec TensorProofs ElementwiseProofs.
From Verif Require Import EncodeModel EncodeSpec EncodeProofs.
Import ListNotations.

(** C12 when the storage holds exactly the elements (contiguous case) or the
    strided tensor starts at the beginning of its storage. *)
Theorem C12_read_back_partial : forall A (t : tensor A), good t ->
  (is_contiguous (tlay t) = true -> exact_storage t) ->
  (is_contiguous (tlay t) = false -> loffset (tlay t) = 0) ->
  exists l, t_to_flatten_vec t = Ok l /\ reads t l.
Proof. exact flatten_partial. Qed.
Print Assumptions C12_read_back_partial.

(** For a contiguous tensor that condition is also necessary. *)
Theorem C12_contiguous_iff_partial : forall A (t : tensor A), good t ->
  is_contiguous (tlay t) = true ->
  ((exists l, t_to_flatten_vec t = Ok l /\ reads t l) <-> exact_storage t).
Proof. exact flatten_contig_iff. Qed.
Print Assumptions C12_contiguous_iff_partial.

(** Reading as another element type converts each element, for a contiguous
    tensor that fills its storage. *)
Theorem C12_read_back_as_partial : forall A B e (z : B) (f : A -> B) t, env_ok e -> good t ->
  is_contiguous (tlay t) = true -> exact_storage t ->
  exists l l', t_to_flatten_vec_as e z f t = Ok l' /\ reads t l /\ l' = map f l.
Proof. exact flatten_cast. Qed.
Print Assumptions C12_read_back_as_partial.

(** C12 is false for a slice of a fresh tensor: all of the parent is returned. *)
Theorem C12_slice_refuted :
  ~ (forall (st : list nat) s o t', length st = nelem s -> regular o s ->
     t_view 0 o (mkT st (from_shape s)) = Ok t' ->
     exists l, t_to_flatten_vec t' = Ok l /\ reads t' l).
Proof.
  intro H. destruct (H [10;11;12;13] [4] (VSlice 0 1 (Some 3%Z) 1)
    (mkT [10;11;12;13] (mkLayout [2] [1] 1)) eq_refl eq_refl eq_refl) as [l [E R]].
  injection E as <-. discriminate R.
Qed.
Print Assumptions C12_slice_refuted.

(** ... for a strided slice with an offset the offset is ignored ... *)
Theorem C12_offset_refuted :
  ~ (forall (t : tensor nat), good t -> is_contiguous (tlay t) = false ->
     exists l, t_to_flatten_vec t = Ok l /\ reads t l).
Proof.
  intro H. destruct (H (mkT [10;11;12;13] (mkLayout [2] [2] 1))) as [l [E R]].
  - split; [reflexivity|]. intros [|x [|y i]] Hi; simpl in *; try tauto.
    unfold addr; simpl. lia.
  - reflexivity.
  - injection E as <-. discriminate R.
Qed.
Print Assumptions C12_offset_refuted.

(** ... and a transposed tensor read as another element type comes back in the
    wrong order. *)
Theorem C12_convert_refuted :
  ~ (forall e (t : tensor nat) t', env_ok e -> good t -> t_view 0 (VTranspose 0 1) t = Ok t' ->
     exists l, t_to_flatten_vec_as e 0 S t' = Ok (map S l) /\ reads t' l).
Proof.
  intro H. destruct (H e1 (mkT [0;1;2;3;4;5] (from_shape [2;3]))
     (mkT [0;1;2;3;4;5] (mkLayout [3;2] [1;3] 0)) e1_ok) as [l [E R]].
  - now apply from_shape_good.
  - reflexivity.
  - assert (El : l = [0;3;1;4;2;5]).
    { unfold reads in R. simpl in R.
      apply (f_equal (map (fun o => match o with Some v => v | None => 0 end))) in R.
      rewrite map_map, map_id in R. symmetry. exact R. }
    subst l. discriminate E.
Qed.
Print Assumptions C12_convert_refuted.

Example C12_ex :
  t_to_flatten_vec (mkT [0;1;2;3;4;5] (mkLayout [3;2] [1;3] 0)) = Ok [0;3;1;4;2;5] /\
  is_contiguous (mkLayout [3;2] [1;3] 0) = false.
Proof. split; reflexivity. Qed.

(** C13: whatever the strides, except for contiguous views of a larger storage. *)
Theorem C13_bytes_partial : forall d z (t : tensor (val d)), good t ->
  Forall (representable d) (tstore t) ->
  (is_contiguous (tlay t) = true -> exact_storage t) ->
  exists bs r, t_to_bytes d z t = Ok bs /\ t_from_bytes d bs (tshape t) = Ok r /\
    good r /\ tshape r = tshape t /\ forall i, valid (tshape t) i -> elem r i = elem t i.
Proof. exact bytes_roundtrip_tensor. Qed.
Print Assumptions C13_bytes_partial.

(** Same through an HDT file. *)
Theorem C13_hdt_partial : forall d z (t : tensor (val d)), good t ->
  Forall (representable d) (tstore t) ->
  (is_contiguous (tlay t) = true -> exact_storage t) ->
  exists bs r, hdt_serialize d z t = Ok (mkHdt (tshape t) d bs) /\
    hdt_deserialize (mkHdt (tshape t) d bs) = Ok r /\
    tshape r = tshape t /\ forall i, valid (tshape t) i -> elem r i = elem t i.
Proof.
  intros d z t Hg Hr Hx.
  destruct (bytes_roundtrip_tensor d z t Hg Hr Hx) as [bs [r [E1 [E2 [_ [E3 E4]]]]]].
  exists bs, r. unfold hdt_serialize. rewrite E1. split; auto.
Qed.
Print Assumptions C13_hdt_partial.

(** C13 is false for a slice of a fresh tensor: the bytes of the whole storage
    are written, and loading them back is refused. *)
Theorem C13_slice_refuted :
  ~ (forall (st : list (val U8)) s o t', length st = nelem s -> regular o s ->
     Forall (representable U8) st ->
     t_view 0%Z o (mkT st (from_shape s)) = Ok t' ->
     exists bs r, t_to_bytes U8 0%Z t' = Ok bs /\ t_from_bytes U8 bs (tshape t') = Ok r).
Proof.
  intro H. destruct (H [10;11;12;13]%Z [4] (VSlice 0 1 (Some 3%Z) 1)
    (mkT [10;11;12;13]%Z (mkLayout [2] [1] 1)) eq_refl eq_refl) as [bs [r [E R]]].
  - repeat constructor; simpl; lia.
  - reflexivity.
  - injection E as <-. discriminate R.
Qed.
Print Assumptions C13_slice_refuted.

Example C13_ex :
  t_to_bytes I16 0%Z (mkT [1;-2;3;256]%Z (mkLayout [2;2] [1;2] 0))
    = Ok [1;0;3;0;254;255;0;1]%Z /\
  t_from_bytes I16 [1;0;3;0;254;255;0;1]%Z [2;2] = Ok (mkT [1;3;-2;256]%Z (from_shape [2;2])).
Proof. split; reflexivity. Qed.

(** C14.  One element: width, little-endian meaning, and decoding. *)
Theorem C14_scalar : forall d v,
  length (encode d v) = dsize d /\ Forall byte (encode d v) /\
  le_meaning (encode d v) (as_int d v) /\
  (representable d v -> decode d (encode d v) = v).
Proof. exact encode_thm. Qed.
Print Assumptions C14_scalar.

(** Whole storages. *)
Theorem C14_storage : forall d l, Forall (representable d) l ->
  bytes_to_storage d (storage_to_bytes d l) = l /\
  length (storage_to_bytes d l) = length l * dsize d /\
  Forall byte (storage_to_bytes d l).
Proof. exact storage_roundtrip. Qed.
Print Assumptions C14_storage.

(** Any byte string of the right length decodes to representable values and
    encodes back to itself. *)
Theorem C14_bytes : forall d bs k, d <> BOOL -> Forall byte bs -> length bs = k * dsize d ->
  storage_to_bytes d (bytes_to_storage d bs) = bs /\
  length (bytes_to_storage d bs) = k /\ Forall (representable d) (bytes_to_storage d bs).
Proof. exact bytes_roundtrip. Qed.
Print Assumptions C14_bytes.

Theorem C14_bool_bytes : forall bs, bytes_to_storage BOOL bs = map (fun b => negb (b =? 0)%Z) bs.
Proof. exact bool_bytes. Qed.
Print Assumptions C14_bool_bytes.

Example C14_ex :
  encode I32 (-2)%Z = [254;255;255;255]%Z /\ representable I32 (-2)%Z /\
  decode I32 [254;255;255;255]%Z = (-2)%Z /\
  bytes_to_storage U16 [1;0;2;1]%Z = [1;258]%Z /\
  bytes_to_storage BOOL [0;1;7]%Z = [false;true;true].
Proof. split; [reflexivity|]. split; [simpl; lia|]. repeat split. Qed.

(** C15 *)
Theorem C15_correspondence : forall d,
  plugin_dtype_to_core (core_dtype_to_plugin d) = d /\
  ptag (core_dtype_to_plugin d) = tag d /\
  pname (core_dtype_to_plugin d) = dname d /\
  pdsize (core_dtype_to_plugin d) = dsize d.
Proof. destruct d; repeat split. Qed.
Print Assumptions C15_correspondence.

Theorem C15_correspondence_back : forall p,
  core_dtype_to_plugin (plugin_dtype_to_core p) = p.
Proof. destruct p; reflexivity. Qed.
Print Assumptions C15_correspondence_back.

Theorem C15_distinct : forall d d',
  (tag d = tag d' -> d = d') /\ (dname d = dname d' -> d = d').
Proof. destruct d, d'; split; intro H; try reflexivity; discriminate H. Qed.
Print Assumptions C15_distinct.

(** A string parses to a dtype exactly when it is its printed name, up to case;
    in particular printed names parse back. *)
Theorem C15_parse : forall s d,
  (str_to_dtype s = Some d <-> to_lowercase s = dname d) /\
  (str_to_pdtype s = Some (core_dtype_to_plugin d) <-> to_lowercase s = dname d) /\
  str_to_dtype (dname d) = Some d.
Proof.
  intros s d. split; [apply str_to_dtype_iff|]. split.
  - rewrite str_to_pdtype_iff. now destruct (C15_correspondence d) as [_ [_ [-> _]]].
  - destruct d; reflexivity.
Qed.
Print Assumptions C15_parse.

Example C15_ex :
  str_to_dtype "BF16"%string = Some BF16 /\ str_to_dtype "float32"%string = None /\
  tag I64 = 14.
Proof. repeat split. Qed.

(** C16 for rectangular arrays.  Missing: refusing the others. *)
Theorem C16_rows_partial : forall A (rows : list (list A)) c, rows <> [] ->
  Forall (fun r => length r = c) rows ->
  exists t, t_new (shape2 rows) (flat2 rows) = Ok t /\ tshape t = [length rows; c] /\
    good t /\ exact_storage t /\
    (forall i j r, nth_error rows i = Some r -> j < c -> elem t [i; j] = nth_error r j) /\
    t_to_vec2d t = Ok rows.
Proof. exact new2_thm. Qed.
Print Assumptions C16_rows_partial.

Theorem C16_cubes_partial : forall A (x : list (list (list A))) m c, x <> [] -> 0 < m ->
  Forall (fun a => length a = m /\ Forall (fun r => length r = c) a) x ->
  exists t, t_new (shape3 x) (flat3 x) = Ok t /\ tshape t = [length x; m; c] /\
    good t /\ exact_storage t /\
    (forall i j k a r, nth_error x i = Some a -> nth_error a j = Some r -> k < c ->
       elem t [i; j; k] = nth_error r k) /\
    t_to_vec3d t = Ok x.
Proof. exact new3_thm. Qed.
Print Assumptions C16_cubes_partial.

(** A flat vector with an explicit shape is accepted exactly when the counts
    agree, and then element [i] is the [ravel i]-th datum. *)
Theorem C16_from_slice : forall A (data : list A) s,
  (forall t, t_from_slice data s = Ok t ->
     tshape t = s /\ good t /\ exact_storage t /\
     forall i, valid s i -> elem t i = nth_error data (ravel s i)) /\
  ((exists t, t_from_slice data s = Ok t) <-> length data = nelem s).
Proof.
  intros A data s. unfold t_from_slice. change (shape_size s) with (nelem s).
  destruct (Nat.eqb_spec (nelem s) (length data)) as [E|E]; cbn [negb]; split.
  - intros t Ht. injection Ht as <-. split; [reflexivity|].
    split; [now apply from_shape_good|]. split; [exact (eq_sym E)|].
    intros i Hi. unfold elem. cbn [tstore tlay]. rewrite addr_from_shape; auto.
    now apply valid_length.
  - split; auto. intros _. eexists; reflexivity.
  - discriminate.
  - split; [intros [t Ht]; discriminate|congruence].
Qed.
Print Assumptions C16_from_slice.

(** C16 is false for ragged rows: [[1,2],[3]] becomes a 2x2 tensor over three
    elements. *)
Theorem C16_ragged_refuted :
  ~ (forall (rows : list (list nat)) t, t_new (shape2 rows) (flat2 rows) = Ok t ->
     good t /\ nelem (tshape t) = length (flat2 rows)).
Proof.
  intro H. destruct (H [[1;2];[3]] _ eq_refl) as [_ E]. discriminate E.
Qed.
Print Assumptions C16_ragged_refuted.

(** ... and a 3-D literal whose first matrix has no rows makes the library panic. *)
Theorem C16_empty_matrix_refuted :
  ~ (forall (x : list (list (list nat))), t_new (shape3 x) (flat3 x) <> Panic).
Proof. intro H. apply (H [[]]). reflexivity. Qed.
Print Assumptions C16_empty_matrix_refuted.

Example C16_ex :
  t_new (shape3 [[[1;2];[3;4];[5;6]];[[7;8];[9;10];[11;12]]])
        (flat3 [[[1;2];[3;4];[5;6]];[[7;8];[9;10];[11;12]]])
  = Ok (mkT [1;2;3;4;5;6;7;8;9;10;11;12] (from_shape [2;3;2])) /\
  t_from_slice [1;2;3] [2;2] = Err EShape.
Proof. split; reflexivity. Qed.
