(** Proofs about dtypes, codecs, nested arrays and read-back. *)
From Coq Require Import String Ascii.
From Coq Require Import List Arith ZArith Lia Bool ZifyBool ZifyNat.
From Verif Require Import Base IndexSpec LayoutModel ViewSpec LayoutProofs LayoutProofs2 BcastProofs.
From Verif Require Import KernelModel KernelProofs TensorModel TensorSpec TensorProofs.
From Verif Require Import EncodeModel EncodeSpec.
Import ListNotations.

(* ---------- codecs ---------- *)

Lemma le_bytes_length : forall w n, length (le_bytes w n) = w.
Proof. induction w as [|w IH]; intros n; simpl; auto. Qed.

Lemma le_bytes_byte : forall w n, Forall byte (le_bytes w n).
Proof.
  induction w as [|w IH]; intros n; simpl; constructor; auto.
  unfold byte. apply Z.mod_pos_bound. lia.
Qed.

Lemma le_value_le_bytes : forall w n, le_value (le_bytes w n) = (n mod 256 ^ Z.of_nat w)%Z.
Proof.
  induction w as [|w IH]; intros n.
  - simpl. now rewrite Z.mod_1_r.
  - cbn [le_bytes le_value]. rewrite IH, Nat2Z.inj_succ, Z.pow_succ_r by lia.
    rewrite Z.rem_mul_r by lia. lia.
Qed.

Lemma le_value_bound : forall bs, Forall byte bs ->
  (0 <= le_value bs < 256 ^ Z.of_nat (length bs))%Z.
Proof.
  induction bs as [|b r IH]; intro H; [simpl; lia|].
  inversion H; subst. specialize (IH H3). unfold byte in H2.
  cbn [le_value length]. rewrite Nat2Z.inj_succ, Z.pow_succ_r by lia. lia.
Qed.

Lemma le_bytes_le_value : forall bs, Forall byte bs -> le_bytes (length bs) (le_value bs) = bs.
Proof.
  induction bs as [|b r IH]; intro H; [reflexivity|].
  inversion H; subst. specialize (IH H3). unfold byte in H2.
  cbn [le_value length le_bytes].
  rewrite Z.mul_comm. rewrite Z.mod_add by lia. rewrite Z.div_add by lia.
  rewrite (Z.mod_small b), (Z.div_small b) by lia. rewrite Z.add_0_l. now rewrite IH.
Qed.

Lemma le_bytes_mod : forall w n m, (exists q, n = m + q * 256 ^ Z.of_nat w)%Z ->
  le_bytes w n = le_bytes w m.
Proof.
  induction w as [|w IH]; intros n m [q E]; [reflexivity|].
  cbn [le_bytes]. rewrite Nat2Z.inj_succ, Z.pow_succ_r in E by lia.
  f_equal.
  - subst n. replace (m + q * (256 * 256 ^ Z.of_nat w))%Z
      with (m + (q * 256 ^ Z.of_nat w) * 256)%Z by lia. now rewrite Z.mod_add by lia.
  - apply IH. exists q. subst n.
    replace (m + q * (256 * 256 ^ Z.of_nat w))%Z
      with (m + (q * 256 ^ Z.of_nat w) * 256)%Z by lia. now rewrite Z.div_add by lia.
Qed.

Lemma weigh_shift : forall bs k, (0 <= k)%Z -> weigh k bs = (256 ^ k * le_value bs)%Z.
Proof.
  induction bs as [|b r IH]; intros k Hk; cbn [weigh le_value]; [lia|].
  rewrite IH by lia. rewrite Z.pow_add_r by lia. lia.
Qed.

Lemma le_bytes_meaning : forall w n, le_meaning (le_bytes w n) n.
Proof.
  intros w n. split; [apply le_bytes_byte|]. exists (n / 256 ^ Z.of_nat w)%Z.
  rewrite weigh_shift, le_value_le_bytes, le_bytes_length by lia.
  pose proof (Z.div_mod n (256 ^ Z.of_nat w)). lia.
Qed.

Lemma encode_thm : forall d v,
  length (encode d v) = dsize d /\ Forall byte (encode d v) /\
  le_meaning (encode d v) (as_int d v) /\
  (representable d v -> decode d (encode d v) = v).
Proof.
  intros d v.
  assert (Hu : forall w n, (0 <= n < 256 ^ Z.of_nat w)%Z -> le_value (le_bytes w n) = n)
    by (intros; rewrite le_value_le_bytes; now apply Z.mod_small).
  assert (Hs : forall w n, 0 < w -> (- (256 ^ Z.of_nat w / 2) <= n < 256 ^ Z.of_nat w / 2)%Z ->
     to_signed w (le_value (le_bytes w n)) = n).
  { intros w n Hw H. rewrite le_value_le_bytes. unfold to_signed.
    replace (2 ^ (8 * Z.of_nat w))%Z with (256 ^ Z.of_nat w)%Z
      by (rewrite Z.pow_mul_r by lia; reflexivity).
    assert (E : (256 ^ Z.of_nat w = 2 * 2 ^ (8 * Z.of_nat w - 1))%Z).
    { rewrite <- Z.pow_succ_r by lia. replace (Z.succ (8 * Z.of_nat w - 1))
        with (8 * Z.of_nat w)%Z by lia. rewrite Z.pow_mul_r by lia. reflexivity. }
    set (P := (2 ^ (8 * Z.of_nat w - 1))%Z) in *. rewrite E in *.
    rewrite (Z.mul_comm 2 P), Z.div_mul in H by lia. rewrite (Z.mul_comm 2 P).
    assert (Hp : (0 < P)%Z) by (unfold P; apply Z.pow_pos_nonneg; lia).
    destruct (Z.ltb_spec n 0).
    - assert (En : (n mod (P * 2) = n + P * 2)%Z).
      { symmetry. apply (Z.mod_unique _ _ (-1)); lia. }
      rewrite En. destruct (Z.ltb_spec (n + P * 2) P); lia.
    - rewrite Z.mod_small by lia. destruct (Z.ltb_spec n P); lia. }
  assert (Hone : forall x : Z, (0 <= x < 256)%Z -> Forall byte [x])
    by (intros; constructor; auto).
  split; [destruct d; try apply le_bytes_length; reflexivity|].
  split; [destruct d; try apply le_bytes_byte; apply Hone; destruct v; lia|].
  split.
  { destruct d; try apply le_bytes_meaning. cbn [encode as_int]. split.
    - apply Hone. destruct v; lia.
    - exists 0%Z. destruct v; reflexivity. }
  intro H. destruct d; cbn [representable encode decode dsize val] in *;
    try (apply Hu; simpl; lia); try (apply Hs; [lia|simpl; lia]).
  destruct v; reflexivity.
Qed.

Lemma encode_decode : forall d bs, Forall byte bs -> length bs = dsize d -> d <> BOOL ->
  encode d (decode d bs) = bs /\ representable d (decode d bs).
Proof.
  intros d bs Hb Hl Hd.
  pose proof (le_value_bound bs Hb) as B. rewrite Hl in B.
  assert (Hs : forall w, 0 < w -> exists q,
     (to_signed w (le_value bs) = le_value bs + q * 256 ^ Z.of_nat w)%Z).
  { intros w Hw. unfold to_signed. destruct (_ <? _)%Z; [exists 0%Z; lia|].
    exists (-1)%Z. replace (2 ^ (8 * Z.of_nat w))%Z with (256 ^ Z.of_nat w)%Z
      by (rewrite Z.pow_mul_r by lia; reflexivity). lia. }
  assert (Hr : forall w, 0 < w -> (0 <= le_value bs < 256 ^ Z.of_nat w)%Z ->
     (- (256 ^ Z.of_nat w / 2) <= to_signed w (le_value bs) < 256 ^ Z.of_nat w / 2)%Z).
  { intros w Hw H. unfold to_signed.
    replace (2 ^ (8 * Z.of_nat w))%Z with (256 ^ Z.of_nat w)%Z
      by (rewrite Z.pow_mul_r by lia; reflexivity).
    assert (E : (256 ^ Z.of_nat w = 2 * 2 ^ (8 * Z.of_nat w - 1))%Z).
    { rewrite <- Z.pow_succ_r by lia. replace (Z.succ (8 * Z.of_nat w - 1))
        with (8 * Z.of_nat w)%Z by lia. rewrite Z.pow_mul_r by lia. reflexivity. }
    set (P := (2 ^ (8 * Z.of_nat w - 1))%Z) in *. rewrite E in *.
    rewrite (Z.mul_comm 2 P), Z.div_mul by lia.
    destruct (Z.ltb_spec (le_value bs) P); lia. }
  split.
  - destruct d; try congruence; cbn [encode decode dsize] in *; rewrite <- Hl at 1;
      try (now apply le_bytes_le_value);
      (etransitivity; [apply le_bytes_mod; rewrite Hl; apply Hs; lia|now apply le_bytes_le_value]).
  - destruct d; try congruence; cbn [decode dsize representable] in *;
      try (simpl in B; lia);
      first [apply (Hr 1); [lia|assumption]|apply (Hr 2); [lia|assumption]
            |apply (Hr 4); [lia|assumption]|apply (Hr 8); [lia|assumption]].
Qed.

(* ---------- chunks ---------- *)

Lemma chunks_fuel_flat_map : forall A B (f : A -> list B) n l fuel, 0 < n ->
  (forall x, In x l -> length (f x) = n) -> length l <= fuel ->
  chunks_exact_fuel fuel n (flat_map f l) = map f l.
Proof.
  intros A B f n l. induction l as [|x l IH]; intros fuel Hn H Hf.
  - destruct fuel; simpl; auto. destruct n; [lia|reflexivity].
  - destruct fuel as [|fuel]; [simpl in Hf; lia|]. cbn [flat_map chunks_exact_fuel].
    rewrite app_length, (H x) by (now left).
    destruct (Nat.ltb_spec (n + length (flat_map f l)) n); [lia|].
    cbn [map]. f_equal.
    + rewrite firstn_app, (H x) by (now left). rewrite Nat.sub_diag, firstn_O, app_nil_r.
      rewrite <- (H x) by (now left). apply firstn_all.
    + rewrite skipn_app, (H x) by (now left). rewrite Nat.sub_diag, skipn_O.
      rewrite skipn_all2 by (rewrite (H x) by (now left); lia).
      apply IH; auto. intros y Hy. apply H. now right. simpl in Hf; lia.
Qed.

Lemma flat_map_length_uniform : forall A B (f : A -> list B) n l,
  (forall x, In x l -> length (f x) = n) -> length (flat_map f l) = length l * n.
Proof.
  induction l as [|x l IH]; intro H; simpl; auto.
  rewrite app_length, (H x), IH by (try (now left); intros; apply H; now right). lia.
Qed.

Lemma chunks_exact_flat_map : forall A B (f : A -> list B) n l, 0 < n ->
  (forall x, In x l -> length (f x) = n) -> chunks_exact n (flat_map f l) = map f l.
Proof.
  intros A B f n l Hn H. unfold chunks_exact. apply chunks_fuel_flat_map; auto.
  rewrite (flat_map_length_uniform _ _ f n) by auto. nia.
Qed.

Lemma chunks_fuel_spec : forall A n k (l : list A) fuel, 0 < n -> length l = k * n -> k <= fuel ->
  concat (chunks_exact_fuel fuel n l) = l /\ length (chunks_exact_fuel fuel n l) = k /\
  Forall (fun c => length c = n) (chunks_exact_fuel fuel n l).
Proof.
  intros A n. induction k as [|k IH]; intros l fuel Hn Hl Hf.
  - destruct l; [|simpl in Hl; lia]. destruct fuel; simpl; auto.
    destruct n; [lia|]. simpl. auto.
  - destruct fuel as [|fuel]; [lia|]. cbn [chunks_exact_fuel].
    destruct (Nat.ltb_spec (length l) n); [nia|].
    destruct (IH (skipn n l) fuel Hn) as [H1 [H2 H3]];
      [rewrite skipn_length; nia|lia|].
    split; [|split].
    + cbn [concat]. rewrite H1. apply firstn_skipn.
    + cbn [length]. now rewrite H2.
    + constructor; auto. apply firstn_length_le. lia.
Qed.

Lemma chunks_exact_spec : forall A n k (l : list A), 0 < n -> length l = k * n ->
  concat (chunks_exact n l) = l /\ length (chunks_exact n l) = k /\
  Forall (fun c => length c = n) (chunks_exact n l).
Proof. intros A n k l Hn Hl. apply chunks_fuel_spec; auto. rewrite Hl. nia. Qed.

Lemma dsize_pos : forall d, 0 < dsize d.
Proof. destruct d; simpl; lia. Qed.

Lemma storage_roundtrip : forall d l, Forall (representable d) l ->
  bytes_to_storage d (storage_to_bytes d l) = l /\
  length (storage_to_bytes d l) = length l * dsize d /\
  Forall byte (storage_to_bytes d l).
Proof.
  intros d l H. unfold bytes_to_storage, storage_to_bytes. split; [|split].
  - rewrite chunks_exact_flat_map; [|apply dsize_pos|intros; apply encode_thm].
    rewrite map_map. rewrite <- map_id. apply map_ext_in. intros x Hx.
    apply encode_thm. rewrite Forall_forall in H. auto.
  - apply flat_map_length_uniform. intros; apply encode_thm.
  - apply Forall_flat_map. apply Forall_forall. intros; apply encode_thm.
Qed.

Lemma bytes_roundtrip : forall d bs k, d <> BOOL -> Forall byte bs -> length bs = k * dsize d ->
  storage_to_bytes d (bytes_to_storage d bs) = bs /\
  length (bytes_to_storage d bs) = k /\ Forall (representable d) (bytes_to_storage d bs).
Proof.
  intros d bs k Hd Hb Hl.
  destruct (chunks_exact_spec _ (dsize d) k bs (dsize_pos d) Hl) as [H1 [H2 H3]].
  unfold storage_to_bytes, bytes_to_storage.
  assert (Hc : forall c, In c (chunks_exact (dsize d) bs) -> Forall byte c /\ length c = dsize d).
  { intros c Hc. split.
    - rewrite <- H1 in Hb. rewrite Forall_forall in *. intros x Hx. apply Hb.
      apply in_concat. eauto.
    - rewrite Forall_forall in H3. auto. }
  split; [|split].
  - rewrite flat_map_concat_map, map_map. rewrite <- H1 at 2. f_equal.
    rewrite <- map_id. apply map_ext_in. intros c Hin. apply encode_decode; auto; now apply Hc.
  - now rewrite map_length.
  - apply Forall_forall. intros x Hx. apply in_map_iff in Hx. destruct Hx as [c [<- Hin]].
    apply encode_decode; auto; now apply Hc.
Qed.

Lemma bool_bytes : forall bs, bytes_to_storage BOOL bs = map (fun b => negb (b =? 0)%Z) bs.
Proof.
  intro bs. unfold bytes_to_storage, chunks_exact. cbn [dsize].
  induction bs as [|b r IH]; [reflexivity|].
  cbn [length chunks_exact_fuel]. destruct (Nat.ltb_spec (S (length r)) 1); [lia|].
  cbn [firstn skipn map]. rewrite IH. f_equal. cbn [decode le_value].
  f_equal. f_equal. lia.
Qed.

(* ---------- names ---------- *)

Lemma str_to_dtype_iff : forall s d, str_to_dtype s = Some d <-> to_lowercase s = dname d.
Proof.
  intros s d. unfold str_to_dtype. split.
  - repeat match goal with
    | |- context [String.eqb ?a ?b] => destruct (String.eqb_spec a b) as [->|]
    end; intro H; try discriminate; injection H as <-; reflexivity.
  - intros ->. destruct d; reflexivity.
Qed.
Lemma str_to_pdtype_iff : forall s d, str_to_pdtype s = Some d <-> to_lowercase s = pname d.
Proof.
  intros s d. unfold str_to_pdtype. split.
  - repeat match goal with
    | |- context [String.eqb ?a ?b] => destruct (String.eqb_spec a b) as [->|]
    end; intro H; try discriminate; injection H as <-; reflexivity.
  - intros ->. destruct d; reflexivity.
Qed.

(* ---------- read-back ---------- *)

Lemma incr_spec : forall dims idx, valid dims idx ->
  (snd (incr dims idx) = false ->
     valid dims (fst (incr dims idx)) /\ ravel dims (fst (incr dims idx)) = S (ravel dims idx)) /\
  (snd (incr dims idx) = true ->
     S (ravel dims idx) = nelem dims /\ ravel dims (fst (incr dims idx)) = 0 /\
     valid dims (fst (incr dims idx))).
Proof.
  induction dims as [|d ds IH]; intros [|x xs] H; simpl in H; try tauto.
  - simpl. split; [discriminate|]. intros _. unfold nelem; simpl; auto.
  - destruct H as [Hx Hv]. specialize (IH xs Hv). cbn [incr].
    destruct (incr ds xs) as [xs' c]. cbn [fst snd] in IH. destruct IH as [I1 I2].
    rewrite nelem_cons. destruct c.
    + specialize (I2 eq_refl). destruct I2 as [I2 [I3 I4]].
      destruct (Nat.ltb_spec (S x) d); cbn [fst snd valid ravel]; split; try discriminate;
        intros _; [split; [auto|nia]|].
      assert (E : d = S x) by lia. split; [nia|]. split; [nia|]. split; [lia|auto].
    + specialize (I1 eq_refl). destruct I1 as [I1 I3].
      cbn [fst snd valid ravel]. split; [|discriminate]. intros _. split; [auto|lia].
Qed.

Lemma odometer_spec : forall A (data : list A) dims strides n idx, valid dims idx ->
  n + ravel dims idx = nelem dims ->
  (forall i, valid dims i -> dot i strides < length data) ->
  map Some (odometer data dims strides idx n) =
  map (fun k => nth_error data (dot (unravel dims k) strides)) (seq (ravel dims idx) n).
Proof.
  intros A data dims strides. induction n as [|n IH]; intros idx Hv Hn Hd; [reflexivity|].
  cbn [odometer seq map]. destruct (incr_spec dims idx Hv) as [I1 I2].
  destruct (incr dims idx) as [idx' c]. cbn [fst snd] in *.
  rewrite unravel_ravel by auto.
  destruct (nth_error data (dot idx strides)) as [x|] eqn:E.
  2:{ apply nth_error_None in E. specialize (Hd idx Hv). lia. }
  cbn [app map]. f_equal. destruct c.
  - destruct (I2 eq_refl) as [I3 _]. replace n with 0 by lia. reflexivity.
  - destruct (I1 eq_refl) as [I3 I4]. rewrite IH by (auto; lia). now rewrite I4.
Qed.

Lemma valid_repeat0 : forall s, 0 < nelem s -> valid s (repeat 0 (length s)).
Proof.
  induction s as [|d s IH]; intro H; [exact I|]. rewrite nelem_cons in H.
  split; [nia|]. apply IH. nia.
Qed.
Lemma ravel_repeat0 : forall s, ravel s (repeat 0 (length s)) = 0.
Proof. induction s as [|d s IH]; simpl; auto. Qed.

Lemma reads_seq : forall A (t : tensor A) l,
  reads t l <-> map (fun k => elem t (unravel (tshape t) k)) (seq 0 (nelem (tshape t)))
                = map Some l.
Proof. intros. unfold reads. now rewrite all_idx_map_unravel, map_map. Qed.

Lemma reads_length : forall A (t : tensor A) l, reads t l -> length l = nelem (tshape t).
Proof.
  intros A t l H. apply (f_equal (@length _)) in H.
  now rewrite !map_length, all_idx_length in H.
Qed.

Lemma nth_error_map_Some : forall A (l : list A) k,
  k < length l -> nth_error (map Some l) k = Some (nth_error l k).
Proof.
  intros A l k H. rewrite nth_error_map. destruct (nth_error l k) eqn:E; auto.
  apply nth_error_None in E. lia.
Qed.

Lemma contig_exact_reads : forall A (t : tensor A), good t -> is_contiguous (tlay t) = true ->
  exact_storage t -> reads t (tstore t).
Proof.
  intros A t [Hw Hb] Hc He. unfold exact_storage in He. apply reads_seq. apply list_ext. intro k.
  destruct (Nat.lt_ge_cases k (nelem (tshape t))) as [Hk|Hk].
  - rewrite nth_error_map_seq by auto. rewrite nth_error_map_Some by lia. f_equal.
    unfold elem. f_equal.
    assert (Ha : forall i, valid (tshape t) i -> addr (tlay t) i = loffset (tlay t) + ravel (tshape t) i)
      by (intros i Hi; apply (addr_contiguous (tlay t)); auto; now apply valid_length).
    rewrite Ha by (now apply unravel_valid). rewrite ravel_unravel by auto.
    assert (loffset (tlay t) = 0); [|lia].
    assert (Hlast : nelem (tshape t) - 1 < nelem (tshape t)) by lia.
    pose proof (Hb _ (unravel_valid _ _ Hlast)) as B. change (lshape (tlay t)) with (tshape t) in B.
    rewrite Ha in B by (apply unravel_valid; lia). rewrite ravel_unravel in B by lia. lia.
  - rewrite (proj2 (nth_error_None _ _)) by (rewrite map_length, seq_length; lia).
    rewrite (proj2 (nth_error_None _ _)) by (rewrite map_length; lia). reflexivity.
Qed.

Lemma flatten_contig_iff : forall A (t : tensor A), good t -> is_contiguous (tlay t) = true ->
  ((exists l, t_to_flatten_vec t = Ok l /\ reads t l) <-> exact_storage t).
Proof.
  intros A t Hg Hc. unfold t_to_flatten_vec, extract_with_layout. rewrite Hc. split.
  - intros [l [E H]]. injection E as <-. now apply reads_length in H.
  - intro H. exists (tstore t). split; auto. now apply contig_exact_reads.
Qed.

Lemma flatten_strided : forall A (t : tensor A), good t -> is_contiguous (tlay t) = false ->
  loffset (tlay t) = 0 -> exists l, t_to_flatten_vec t = Ok l /\ reads t l.
Proof.
  intros A t [Hw Hb] Hc Ho. unfold t_to_flatten_vec, extract_with_layout. rewrite Hc.
  eexists; split; [reflexivity|]. apply reads_seq. unfold layout_size.
  change (shape_size (lshape (tlay t))) with (nelem (tshape t)).
  destruct (Nat.eq_dec (nelem (tshape t)) 0) as [E|E]; [rewrite E; reflexivity|].
  rewrite odometer_spec.
  - rewrite ravel_repeat0. apply map_ext. intro k. unfold elem, addr. now rewrite Ho.
  - apply valid_repeat0. change (lshape (tlay t)) with (tshape t). lia.
  - rewrite ravel_repeat0. change (lshape (tlay t)) with (tshape t). lia.
  - intros i Hi. specialize (Hb i Hi). unfold addr in Hb. lia.
Qed.

Lemma flatten_partial : forall A (t : tensor A), good t ->
  (is_contiguous (tlay t) = true -> exact_storage t) ->
  (is_contiguous (tlay t) = false -> loffset (tlay t) = 0) ->
  exists l, t_to_flatten_vec t = Ok l /\ reads t l.
Proof.
  intros A t Hg H1 H2. destruct (is_contiguous (tlay t)) eqn:E.
  - apply flatten_contig_iff; auto.
  - apply flatten_strided; auto.
Qed.

Lemma elem_reads : forall A (t : tensor A) l i, reads t l -> valid (tshape t) i ->
  elem t i = nth_error l (ravel (tshape t) i).
Proof.
  intros A t l i H Hi. apply reads_seq in H. pose proof (ravel_lt _ _ Hi) as Hk.
  apply (f_equal (fun x => nth_error x (ravel (tshape t) i))) in H.
  rewrite nth_error_map_seq, nth_error_map, unravel_ravel in H by auto.
  destruct (nth_error l _); [now inversion H|discriminate].
Qed.

(** two tensors with the same elements read back the same *)
Lemma flatten_cast : forall A B e (z : B) (f : A -> B) t, env_ok e -> good t ->
  is_contiguous (tlay t) = true -> exact_storage t ->
  exists l l', t_to_flatten_vec_as e z f t = Ok l' /\ reads t l /\ l' = map f l.
Proof.
  intros A B e z f t He Hg Hc Hx.
  pose proof (contig_exact_reads A t Hg Hc Hx) as Hr.
  assert (Ho : offset_read (tlay t)).
  { unfold offset_read. destruct (lshape (tlay t)) as [|d s] eqn:Es; [right|left; congruence].
    destruct Hg as [Hw Hb]. specialize (Hb []). rewrite Es in Hb. specialize (Hb I).
    unfold exact_storage, tshape in Hx. rewrite Es in Hx. unfold addr in Hb. simpl in Hb.
    unfold nelem in Hx. simpl in Hx. lia. }
  destruct (t_unary_spec A B e z f t He Hg Ho) as [t' [E [Hg' [Hs [Hl [Hn He']]]]]].
  unfold t_to_flatten_vec_as. change (t_cast e z f t) with (t_unary e z f t). rewrite E.
  cbn [bind]. unfold extract_with_layout. rewrite Hc.
  exists (tstore t), (tstore t'). split; auto. split; auto.
  assert (Hr' : reads t' (tstore t')).
  { apply contig_exact_reads; auto; [rewrite Hl; apply from_shape_contiguous|].
    unfold exact_storage. now rewrite Hs. }
  apply list_ext. intro k. rewrite nth_error_map.
  unfold exact_storage in Hx.
  destruct (Nat.lt_ge_cases k (nelem (tshape t))) as [Hk|Hk].
  - pose proof (unravel_valid _ _ Hk) as Hv.
    pose proof (elem_reads _ _ _ _ Hr Hv) as E1. rewrite ravel_unravel in E1 by auto.
    pose proof (He' _ Hv) as E2. rewrite <- Hs in Hv.
    pose proof (elem_reads _ _ _ _ Hr' Hv) as E3. rewrite Hs, ravel_unravel in E3 by auto.
    rewrite <- E3, E2, E1. reflexivity.
  - rewrite (proj2 (nth_error_None _ _)) by lia.
    rewrite (proj2 (nth_error_None (tstore t) _)) by lia. reflexivity.
Qed.

(* ---------- bytes of a tensor ---------- *)

Lemma bytes_roundtrip_tensor : forall d z (t : tensor (val d)), good t ->
  Forall (representable d) (tstore t) ->
  (is_contiguous (tlay t) = true -> exact_storage t) ->
  exists bs r, t_to_bytes d z t = Ok bs /\ t_from_bytes d bs (tshape t) = Ok r /\
    good r /\ tshape r = tshape t /\ forall i, valid (tshape t) i -> elem r i = elem t i.
Proof.
  intros d z t Hg Hr Hx. unfold t_to_bytes.
  assert (G : forall st, Forall (representable d) st -> length st = nelem (tshape t) ->
     (forall i, valid (tshape t) i -> nth_error st (ravel (tshape t) i) = elem t i) ->
     exists bs r, Ok (storage_to_bytes d st) = Ok bs /\ t_from_bytes d bs (tshape t) = Ok r /\
       good r /\ tshape r = tshape t /\ forall i, valid (tshape t) i -> elem r i = elem t i).
  { intros st Hst Hl He. destruct (storage_roundtrip d st Hst) as [E1 [E2 _]].
    exists (storage_to_bytes d st), (mkT st (from_shape (tshape t))). split; auto.
    split.
    - unfold t_from_bytes. change (shape_size (tshape t)) with (nelem (tshape t)).
      rewrite E2, Hl, Nat.eqb_refl, E1. reflexivity.
    - split; [now apply from_shape_good|]. split; [reflexivity|].
      intros i Hi. unfold elem at 1. cbn [tstore tlay].
      rewrite addr_from_shape by (now apply valid_length). auto. }
  destruct (is_contiguous (tlay t)) eqn:Ec; cbn [negb bind].
  - apply G; auto; [now apply Hx|]. intros i Hi. symmetry. apply elem_reads; auto.
    apply contig_exact_reads; auto.
  - destruct (t_contiguous_spec _ z t Hg) as [c [E [Hgc [Hs [Hcc [He [_ Hc2]]]]]]].
    rewrite E. cbn [bind]. destruct (Hc2 Ec) as [Hl Hn].
    assert (Hrd : reads c (tstore c)).
    { apply contig_exact_reads; auto. unfold exact_storage. now rewrite Hs. }
    apply G; auto.
    + apply Forall_forall. intros x Hin. apply In_nth_error in Hin. destruct Hin as [k Hk].
      assert (Hlt : k < nelem (tshape t))
        by (rewrite <- Hn; apply nth_error_Some; congruence).
      pose proof (unravel_valid _ _ Hlt) as Hv.
      pose proof (He _ Hv) as E1.
      rewrite (elem_reads _ _ _ _ Hrd) in E1 by (now rewrite Hs).
      rewrite Hs, ravel_unravel, Hk in E1 by auto.
      symmetry in E1. unfold elem in E1. apply nth_error_In in E1.
      rewrite Forall_forall in Hr. auto.
    + intros i Hi. rewrite <- He by auto. rewrite <- Hs in Hi |- *. symmetry.
      now apply elem_reads.
Qed.

(* ---------- nested arrays ---------- *)

Lemma collect_seq : forall A (f : nat -> outcome A) l a,
  (forall i x, nth_error l i = Some x -> f (a + i) = Ok x) ->
  collect (map f (seq a (length l))) = Ok l.
Proof.
  intros A f l. induction l as [|x l IH]; intros a H; [reflexivity|].
  cbn [length seq map collect]. pose proof (H 0 x eq_refl) as E.
  rewrite Nat.add_0_r in E. rewrite E. cbn [bind]. rewrite IH; [reflexivity|].
  intros i y Hy. replace (S a + i) with (a + S i) by lia. now apply H.
Qed.

Lemma rows_length : forall A (rows : list (list A)) c,
  Forall (fun r => length r = c) rows -> length (concat rows) = length rows * c.
Proof.
  induction rows as [|r rows IH]; intros c H; simpl; auto.
  inversion H; subst. rewrite app_length, (IH (length r)) by auto. lia.
Qed.

Lemma sub_vec_concat : forall A (rows : list (list A)) pre post c i r,
  Forall (fun r => length r = c) rows -> nth_error rows i = Some r ->
  sub_vec (pre ++ concat rows ++ post) (length pre + i * c) c = Ok r.
Proof.
  intros A rows. induction rows as [|r0 rows IH]; intros pre post c i r H Hi;
    [destruct i; discriminate|].
  inversion H as [|? ? L H']; subst. destruct i as [|i].
  - injection Hi as ->. unfold sub_vec. cbn [concat].
    rewrite !app_length. destruct (Nat.leb_spec (length pre + 0 * length r + length r)
      (length pre + (length r + length (concat rows) + length post))); [|lia].
    f_equal. rewrite Nat.mul_0_l, Nat.add_0_r.
    rewrite skipn_app, skipn_all, Nat.sub_diag. cbn [app skipn].
    rewrite <- app_assoc, firstn_app, firstn_all, Nat.sub_diag, firstn_O. now rewrite app_nil_r.
  - cbn [concat]. simpl in Hi.
    replace (pre ++ (r0 ++ concat rows) ++ post)
      with ((pre ++ r0) ++ concat rows ++ post) by now rewrite !app_assoc.
    replace (length pre + S i * length r0) with (length (pre ++ r0) + i * length r0)
      by (rewrite app_length; lia).
    now apply IH.
Qed.

Lemma rows_of_concat : forall A (rows : list (list A)) pre post c,
  Forall (fun r => length r = c) rows ->
  rows_of (pre ++ concat rows ++ post) (length pre) (length rows) c = Ok rows.
Proof.
  intros A rows pre post c H. unfold rows_of. apply (collect_seq _ _ rows 0).
  intros i x Hi. now apply sub_vec_concat.
Qed.

Lemma nth_error_concat : forall A (rows : list (list A)) c i j, j < c ->
  Forall (fun r => length r = c) rows ->
  nth_error (concat rows) (i * c + j) =
  match nth_error rows i with Some r => nth_error r j | None => None end.
Proof.
  intros A rows c i j Hj. revert i. induction rows as [|r rows IH]; intros i H.
  - destruct (i * c + j), i; reflexivity.
  - inversion H as [|? ? L H']; subst. destruct i as [|i]; cbn [concat nth_error].
    + rewrite Nat.mul_0_l, Nat.add_0_l. now apply nth_error_app1.
    + rewrite nth_error_app2 by nia.
      replace (S i * length r + j - length r) with (i * length r + j) by nia. now apply IH.
Qed.

Lemma new2_thm : forall A (rows : list (list A)) c, rows <> [] ->
  Forall (fun r => length r = c) rows ->
  exists t, t_new (shape2 rows) (flat2 rows) = Ok t /\ tshape t = [length rows; c] /\
    good t /\ exact_storage t /\
    (forall i j r, nth_error rows i = Some r -> j < c -> elem t [i; j] = nth_error r j) /\
    t_to_vec2d t = Ok rows.
Proof.
  intros A rows c Hne H. destruct rows as [|r0 rows0] eqn:Er; [congruence|].
  assert (L0 : length r0 = c) by (now inversion H).
  rewrite <- Er in *. set (s := [length rows; c]).
  assert (Hsh : shape2 rows = Ok s) by (rewrite Er; unfold s; simpl; now rewrite L0, Er).
  assert (Hl : length (flat2 rows) = nelem s).
  { unfold flat2, s. rewrite (rows_length _ _ c) by auto. rewrite !nelem_cons.
    unfold nelem; simpl; lia. }
  exists (mkT (flat2 rows) (from_shape s)). unfold t_new. rewrite Hsh. cbn [bind].
  split; auto. split; auto. split; [now apply from_shape_good|]. split; [exact Hl|].
  split.
  - intros i j r Hi Hj. unfold elem. cbn [tstore tlay].
    rewrite addr_from_shape by reflexivity. unfold s. simpl ravel.
    replace (i * nelem [c] + (j * nelem [] + 0)) with (i * c + j)
      by (unfold nelem; simpl; lia).
    unfold flat2. rewrite nth_error_concat by auto. now rewrite Hi.
  - unfold t_to_vec2d, t_to_flatten_vec, extract_with_layout. cbn [tlay tstore].
    rewrite from_shape_contiguous. cbn [lshape from_shape]. unfold s. cbn [bind].
    pose proof (rows_of_concat A rows [] [] c H) as R. rewrite app_nil_r in R. exact R.
Qed.

Lemma flat3_rows : forall A (x : list (list (list A))), flat3 x = concat (concat x).
Proof.
  intros A x. unfold flat3, flat2. induction x as [|m x IH]; simpl; auto.
  now rewrite concat_app, IH.
Qed.

Lemma new3_thm : forall A (x : list (list (list A))) m c, x <> [] -> 0 < m ->
  Forall (fun a => length a = m /\ Forall (fun r => length r = c) a) x ->
  exists t, t_new (shape3 x) (flat3 x) = Ok t /\ tshape t = [length x; m; c] /\
    good t /\ exact_storage t /\
    (forall i j k a r, nth_error x i = Some a -> nth_error a j = Some r -> k < c ->
       elem t [i; j; k] = nth_error r k) /\
    t_to_vec3d t = Ok x.
Proof.
  intros A x m c Hne Hm H. destruct x as [|a0 x0] eqn:Ex; [congruence|].
  assert (L0 : length a0 = m /\ Forall (fun r => length r = c) a0) by (now inversion H).
  destruct L0 as [L0 R0]. destruct a0 as [|r0 a1] eqn:Ea; [simpl in L0; lia|].
  assert (C0 : length r0 = c) by (now inversion R0).
  rewrite <- Ex in *. set (s := [length x; m; c]).
  assert (Hsh : shape3 x = Ok s) by (rewrite Ex; unfold s; simpl; simpl in L0; now rewrite C0, L0, Ex).
  assert (Hm1 : Forall (fun a => length a = m) x) by (eapply Forall_impl; [|exact H]; simpl; tauto).
  assert (Hrows : Forall (fun r => length r = c) (concat x)).
  { apply Forall_concat. eapply Forall_impl; [|exact H]. simpl; tauto. }
  assert (Hl : length (flat3 x) = nelem s).
  { rewrite flat3_rows, (rows_length _ _ c), (rows_length _ _ m) by auto.
    unfold s. rewrite !nelem_cons. unfold nelem; simpl; lia. }
  exists (mkT (flat3 x) (from_shape s)). unfold t_new. rewrite Hsh. cbn [bind].
  split; auto. split; auto. split; [now apply from_shape_good|]. split; [exact Hl|].
  split.
  - intros i j k a r Hi Hj Hk. unfold elem. cbn [tstore tlay].
    rewrite addr_from_shape by reflexivity. unfold s. simpl ravel.
    assert (Hjm : j < m).
    { rewrite Forall_forall in Hm1. rewrite <- (Hm1 a) by (eapply nth_error_In; eauto).
      apply nth_error_Some. congruence. }
    replace (i * nelem [m; c] + (j * nelem [c] + (k * nelem [] + 0)))
      with ((i * m + j) * c + k) by (rewrite !nelem_cons; unfold nelem; simpl; lia).
    rewrite flat3_rows, nth_error_concat by auto.
    rewrite nth_error_concat by auto. now rewrite Hi, Hj.
  - unfold t_to_vec3d, t_to_flatten_vec, extract_with_layout. cbn [tlay tstore].
    rewrite from_shape_contiguous. cbn [lshape from_shape]. unfold s. cbn [bind].
    apply (collect_seq _ _ x 0). intros i a Hi. simpl.
    apply nth_error_split in Hi. destruct Hi as [p [q [E Lp]]].
    rewrite E in *. rewrite flat3_rows, !concat_app. cbn [concat]. rewrite concat_app.
    apply Forall_app in Hm1. destruct Hm1 as [Hp Hq].
    apply Forall_app in H. destruct H as [Hp' Hq'].
    destruct (Forall_inv Hq') as [La Ra].
    assert (Lpre : length (concat (concat p)) = i * (m * c)).
    { rewrite (rows_length _ _ c), (rows_length _ _ m), Lp; [lia|auto|].
      apply Forall_concat. eapply Forall_impl; [|exact Hp']. simpl; tauto. }
    rewrite <- Lpre, <- La. now apply rows_of_concat.
Qed.
