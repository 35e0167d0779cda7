(** Rows of a collated batch. *)
From Coq Require Import List Arith ZArith Lia Bool ZifyBool ZifyNat.
From Verif Require Import Base IndexSpec LayoutModel ViewSpec LayoutProofs KernelModel TensorModel TensorSpec
  TensorProofs MoveModel MoveProofs MoveProofs2 DataModel DataProofs.
Import ListNotations.

(** stacking along a new first axis, whatever the packed storages hold *)
Section Stack.
Variables (A : Type) (z : A).

(** [t] with a leading axis of size 1, for a layout with row-major strides *)
Definition lead (t : tensor A) : tensor A :=
  mkT (tstore t) (mkLayout (1 :: tshape t) (compute_strides (1 :: tshape t)) (loffset (tlay t))).

Lemma cstr_cons : forall n s, compute_strides (n :: s) = nelem s :: compute_strides s.
Proof. intros. apply compute_strides_cons. Qed.

Lemma unsqueeze0 : forall t, is_contiguous (tlay t) = true -> t_view z (VUnsqueeze 0%Z) t = Ok (lead t).
Proof.
  intros t H. unfold t_view, t_contiguous. rewrite H. cbn [bind apply_view]. unfold unsqueeze. cbn.
  rewrite H. reflexivity.
Qed.

Lemma stack_lead : forall ts, (forall t, In t ts -> is_contiguous (tlay t) = true) -> ts <> [] ->
  t_stack z ts 0%Z = t_concat z (map lead ts) 0%Z.
Proof.
  intros ts H HN. unfold t_stack. destruct ts as [|t0 r]; [congruence|].
  set (go := fix go (l : list (tensor A)) : outcome (list (tensor A)) :=
               match l with [] => Ok [] | t :: r => do u <- t_view z (VUnsqueeze 0%Z) t ; do us <- go r ; Ok (u :: us) end).
  assert (X : forall l, (forall t, In t l -> is_contiguous (tlay t) = true) -> go l = Ok (map lead l)).
  { induction l as [|t l IH]; intros HH; auto. cbn [go]. rewrite unsqueeze0 by (apply HH; left; auto). cbn [bind].
    fold go. rewrite IH by (intros; apply HH; right; auto). reflexivity. }
  change (bind (go (t0 :: r)) (fun us => t_concat z us 0%Z) = t_concat z (map lead (t0 :: r)) 0%Z). now rewrite (X (t0 :: r) H).
Qed.

Lemma lead_addr : forall t x i, length i = length (tshape t) -> x < 1 ->
  addr (tlay (lead t)) (x :: i) = loffset (tlay t) + ravel (tshape t) i.
Proof.
  intros t x i L H. unfold addr, lead. cbn [tlay loffset lstrides]. rewrite dot_compute_strides by (cbn; lia).
  cbn [ravel]. replace x with 0 by lia. cbn. lia.
Qed.

Lemma stack_gen : forall (ts : list (tensor A)) s val, ts <> [] -> length s < 16 ->
  (forall t, In t ts -> good t /\ is_contiguous (tlay t) = true /\ tshape t = s) ->
  (forall j t i, nth_error ts j = Some t -> valid s i ->
     nth_error (concat (map tstore ts)) (j * nelem s + (loffset (tlay t) + ravel s i)) = Some (val j i)) ->
  exists c, t_stack z ts 0%Z = Ok c /\ good c /\ tlay c = from_shape (length ts :: s) /\
    forall j i, j < length ts -> valid s i -> elem c (j :: i) = Some (val j i).
Proof.
  intros ts s val HN HR HT HV. rewrite stack_lead by (auto; intros t Ht; apply (HT t Ht)).
  destruct ts as [|t0 r] eqn:ETS; [congruence|]. rewrite <- ETS in *.
  assert (Hlead : forall t, In t ts -> tshape (lead t) = 1 :: s).
  { intros t Ht. unfold tshape, lead. cbn. f_equal. apply (HT t Ht). }
  assert (EL : map lead ts = lead t0 :: map lead r) by (rewrite ETS; reflexivity).
  assert (H0 : tshape (lead t0) = 1 :: s) by (apply Hlead; rewrite ETS; left; auto).
  pose proof (t_concat_gen A z (lead t0) (map lead r) 0%Z (fun j i => val j (tl i))) as G. cbv zeta in G. rewrite <- EL in G.
  rewrite H0 in G.
  assert (D : axis_of (length (1 :: s)) 0 = 0) by reflexivity. rewrite D in G.
  assert (SZ : axis_sizes 0 (map lead ts) = repeat 1 (length ts)).
  { unfold axis_sizes. rewrite map_map. clear - Hlead. induction ts as [|t l IH]; auto.
    cbn [map length repeat]. rewrite IH by (intros; apply Hlead; right; auto).
    rewrite (Hlead t) by (left; auto). reflexivity. }
  assert (FS : forall m k, list_sum (firstn m (repeat 1 k)) = Nat.min m k).
  { clear. induction m as [|m IH]; intros [|k]; auto. cbn [repeat firstn list_sum fold_right]. fold (list_sum (firstn m (repeat 1 k))). rewrite IH. lia. }
  destruct G as [c [E [Gc [Lc Vc]]]].
  - apply Forall_forall. intros u Hu. apply in_map_iff in Hu. destruct Hu as [t [<- Ht]].
    destruct (HT t Ht) as [[W B] [C Sh]]. split.
    + unfold wf_layout, lead. cbn [tlay lshape lstrides]. now rewrite compute_strides_length.
    + intros i Hi. cbn [lead tlay lshape] in Hi. destruct i as [|x i]; [destruct Hi|].
      destruct Hi as [Hx Hi]. pose proof (valid_length _ _ Hi) as LI. rewrite lead_addr by auto.
      cbn [lead tstore]. specialize (B i Hi). rewrite addr_contiguous in B; auto.
  - unfold axis_ok. cbn [length]. lia.
  - cbn [length]. lia.
  - intros u Hu. apply in_map_iff in Hu. destruct Hu as [t [<- Ht]]. rewrite Hlead by auto. split; auto.
  - intros j u i Hj Hi. rewrite nth_error_map in Hj. destruct (nth_error ts j) as [t|] eqn:Ej; [|discriminate].
    cbn in Hj. injection Hj as <-. pose proof (nth_error_In _ _ Ej) as Ht. rewrite Hlead in Hi by auto.
    destruct i as [|x i]; [destruct Hi|]. destruct Hi as [Hx Hi]. cbn [tl].
    destruct (HT t Ht) as [_ [_ Sh]]. pose proof (valid_length _ _ Hi) as LI.
    rewrite lead_addr by (rewrite ?Sh; auto). rewrite Sh.
    assert (M : map tstore (map lead ts) = map tstore ts) by (rewrite map_map; reflexivity). rewrite M.
    assert (S1 : list_sum (firstn j (map (fun t => nelem (tshape t)) (map lead ts))) = j * nelem s).
    { rewrite map_map. assert (Jl : j < length ts) by (apply nth_error_Some; congruence).
      rewrite (map_ext_in _ (fun _ => nelem s)) by (intros u Hu; rewrite Hlead by auto; rewrite nelem_cons; lia).
      clear - Jl. revert j Jl. induction ts as [|u l IH]; intros [|j] Jl; cbn [length] in *; try lia; auto.
      cbn [map firstn list_sum fold_right]. fold (list_sum (firstn j (map (fun _ : tensor A => nelem s) l))). rewrite IH by lia. lia. }
    rewrite S1. now apply HV.
  - exists c. split; auto. split; auto. rewrite SZ in *. split.
    + rewrite Lc. cbn [upd]. f_equal. f_equal. pose proof (FS (length ts) (length ts)) as X.
      rewrite firstn_all2 in X by (rewrite repeat_length; lia). lia.
    + intros j i Hj Hi. destruct (nth_error ts j) as [t|] eqn:Ej; [|apply nth_error_None in Ej; lia].
      specialize (Vc j (lead t) (0 :: i)). rewrite nth_error_map, Ej in Vc. specialize (Vc eq_refl).
      rewrite Hlead in Vc by (now apply nth_error_In in Ej). cbn [tl adjust] in Vc.
      rewrite FS in Vc. rewrite Nat.min_l in Vc by lia. apply Vc. split; auto.
Qed.

(** tensors that start and end with their storage *)
Lemma stack_packed : forall (ts : list (tensor A)) s, ts <> [] -> length s < 16 ->
  (forall t, In t ts -> tlay t = from_shape s /\ length (tstore t) = nelem s) ->
  exists c, t_stack z ts 0%Z = Ok c /\ tshape c = length ts :: s /\
    forall j t i, nth_error ts j = Some t -> valid s i -> elem c (j :: i) = elem t i /\ elem t i <> None.
Proof.
  intros ts s HN HR HT.
  assert (P : forall j t i, nth_error ts j = Some t -> valid s i -> elem t i = nth_error (tstore t) (ravel s i) /\ elem t i <> None).
  { intros j t i Hj Hi. destruct (HT t (nth_error_In _ _ Hj)) as [L N].
    assert (E : elem t i = nth_error (tstore t) (ravel s i)).
    { unfold elem. rewrite L, addr_from_shape; auto. now apply valid_length. }
    split; auto. rewrite E. apply nth_error_Some. rewrite N. now apply ravel_lt. }
  destruct (stack_gen ts s (fun j i => match nth_error ts j with Some t => match elem t i with Some v => v | None => z end | None => z end) HN HR)
    as [c [E [G [L V]]]].
  - intros t Ht. destruct (HT t Ht) as [L N]. split; [|split].
    + destruct t as [st lt]. cbn in *. rewrite L. now apply from_shape_good.
    + rewrite L. apply from_shape_contiguous.
    + unfold tshape. now rewrite L.
  - intros j t i Hj Hi. rewrite Hj. destruct (P j t i Hj Hi) as [E N]. destruct (HT t (nth_error_In _ _ Hj)) as [L NL].
    rewrite L. cbn [from_shape loffset plus]. destruct (elem t i) as [v|] eqn:Ev; [|congruence]. rewrite E.
    pose proof (nth_concat A (map tstore ts) j (tstore t) (ravel s i)) as X. rewrite nth_error_map, Hj in X.
    specialize (X eq_refl). rewrite <- X by (rewrite NL; now apply ravel_lt). f_equal. f_equal.
    rewrite map_map. clear - Hj HT. revert j Hj. induction ts as [|u l IH]; intros [|j] Hj; try discriminate; auto.
    cbn [map firstn list_sum fold_right]. fold (list_sum (firstn j (map (fun x => length (tstore x)) l))). cbn [nth_error] in Hj.
    rewrite (proj2 (HT u (or_introl eq_refl))). specialize (IH ltac:(intros; apply HT; now right) j Hj). lia.
  - exists c. split; auto. split; [unfold tshape; now rewrite L|]. intros j t i Hj Hi.
    assert (Jl : j < length ts) by (apply nth_error_Some; congruence). rewrite V by auto. rewrite Hj.
    destruct (P j t i Hj Hi) as [_ N]. split; auto. destruct (elem t i); [auto|congruence].
Qed.

(** ** Rows of a tensor dataset *)

(** a tensor that starts and ends with its storage *)
Definition packed_tensor (t : tensor A) (n : nat) (s : shape) : Prop :=
  tlay t = from_shape (n :: s) /\ length (tstore t) = n * nelem s.

Definition row (t : tensor A) (s : shape) (i : nat) : tensor A :=
  mkT (tstore t) (mkLayout s (compute_strides s) (i * nelem s)).

Lemma shape_strides_contiguous : forall s o, is_contiguous (mkLayout s (compute_strides s) o) = true.
Proof. intros. apply (from_shape_contiguous s). Qed.

Lemma t_row_ok : forall t n s i, packed_tensor t n s -> i < n -> t_row z t i = Ok (row t s i).
Proof.
  intros [st lt] n s i [L N] H. cbn in L, N. subst lt. unfold t_row, t_view at 1, t_contiguous. cbn [tlay tstore].
  rewrite from_shape_contiguous. cbn [bind apply_view tlay tstore]. unfold slice.
  change (0 <? 0)%Z with false. cbv iota. change (as_usize 0) with (Some 0). cbv iota. cbn [from_shape lshape length].
  change (S (length s) <=? 0) with false. change (1 =? 0)%Z with false. cbv iota. cbn [lshape idx_or_panic nth_error bind].
  assert (SB : slice_bounds (Z.of_nat n) (Z.of_nat i) (Some (Z.of_nat (i + 1))) 1 = (Z.of_nat i, 1%Z)).
  { unfold slice_bounds, zclamp. replace (Z.of_nat i <? 0)%Z with false by lia. replace (Z.of_nat (i + 1) <? 0)%Z with false by lia.
    change (1 >? 0)%Z with true. cbv iota. 
    replace (Z.max 0 (Z.min (Z.of_nat i) (Z.of_nat n))) with (Z.of_nat i) by lia || idtac.
    match goal with |- context [if (?c >? ?d)%Z then _ else _] => replace c with (Z.of_nat (i + 1)) by lia; replace d with (Z.of_nat i) by lia end.
    replace (Z.of_nat (i + 1) >? Z.of_nat i)%Z with true by lia.
    f_equal. rewrite Z.quot_1_r. lia. }
  rewrite SB. cbv iota beta. change (1 <=? 0)%Z with false. cbv iota. cbn [from_shape lstrides loffset]. rewrite cstr_cons.
  cbn [nth_error idx_or_panic bind upd loffset]. change (Z.to_nat 1) with 1. change (Z.to_nat (Z.abs 1)) with 1.
  rewrite Nat.mul_1_r, Nat2Z.id. cbn [plus].
  unfold t_view, t_contiguous. cbn [tlay].
  rewrite <- (cstr_cons 1 s), shape_strides_contiguous. cbn [bind apply_view tlay tstore]. unfold squeeze.
  rewrite shape_strides_contiguous. cbn. reflexivity.
Qed.

Lemma nth_concat_repeat : forall (st : list A) b k, 0 < length st -> k < b * length st ->
  nth_error (concat (repeat st b)) k = nth_error st (k mod length st).
Proof.
  intros st b. induction b as [|b IH]; intros k P H; [lia|]. cbn [repeat concat].
  destruct (Nat.lt_ge_cases k (length st)) as [L|L].
  - rewrite nth_error_app1 by auto. now rewrite Nat.mod_small.
  - rewrite nth_error_app2 by auto. rewrite IH by (auto; nia).
    f_equal. replace k with ((k - length st) + 1 * length st) at 2 by lia. now rewrite Nat.mod_add by lia.
Qed.

Lemma stack_rows : forall t n s idx, packed_tensor t n s -> length s < 16 -> idx <> [] ->
  (forall i, In i idx -> i < n) ->
  exists c, t_stack z (map (row t s) idx) 0%Z = Ok c /\ tshape c = length idx :: s /\
    forall j k i, nth_error idx j = Some k -> valid s i ->
      elem c (j :: i) = elem t ((k + j) mod n :: i) /\ elem c (j :: i) <> None.
Proof.
  intros t n s idx [L N] HR HN HI.
  assert (n0 : 0 < n). { destruct idx as [|k r]; [congruence|]. specialize (HI k (or_introl eq_refl)). lia. }
  assert (EV : forall m i, m < n -> valid s i -> elem t (m :: i) = nth_error (tstore t) (m * nelem s + ravel s i)).
  { intros m i Hm Hi. unfold elem. rewrite L, addr_from_shape by (cbn; f_equal; now apply valid_length). reflexivity. }
  set (val := fun j i => match nth_error idx j with
                 | Some k => match elem t ((k + j) mod n :: i) with Some v => v | None => z end | None => z end).
  destruct (stack_gen (map (row t s) idx) s val) as [c [E [G [Lc V]]]]; auto.
  - intro X. apply map_eq_nil in X. auto.
  - intros u Hu. apply in_map_iff in Hu. destruct Hu as [k [<- Hk]]. specialize (HI k Hk). split; [|split].
    + split; [unfold wf_layout, row; cbn [tlay lshape lstrides]; now apply compute_strides_length|].
      intros i Hi. cbn [row tlay lshape] in Hi. unfold addr. cbn [row tlay tstore loffset lstrides].
      rewrite dot_compute_strides by (now apply valid_length). rewrite N. pose proof (ravel_lt _ _ Hi). nia.
    + apply shape_strides_contiguous.
    + reflexivity.
  - intros j u i Hj Hi. rewrite nth_error_map in Hj. destruct (nth_error idx j) as [k|] eqn:Ej; [|discriminate].
    cbn in Hj. injection Hj as <-. cbn [row tlay loffset]. unfold val. rewrite Ej.
    assert (Kn : k < n) by (apply HI; now apply nth_error_In in Ej).
    assert (Jb : j < length idx) by (apply nth_error_Some; congruence).
    pose proof (ravel_lt _ _ Hi) as RL.
    assert (MS : map tstore (map (row t s) idx) = repeat (tstore t) (length idx)).
    { rewrite map_map. cbn [row tstore]. clear. induction idx; cbn; congruence. }
    rewrite MS. rewrite nth_concat_repeat; rewrite ?N; [|nia|].
    2:{ enough ((j + k) * nelem s + ravel s i < (length idx * n) * nelem s) by nia.
        assert (j + k + 1 <= length idx * n) by nia. nia. }
    assert (MM : (j * nelem s + (k * nelem s + ravel s i)) mod (n * nelem s) = ((k + j) mod n) * nelem s + ravel s i).
    { replace (j * nelem s + (k * nelem s + ravel s i)) with (ravel s i + (k + j) * nelem s) by lia.
      pose proof (Nat.div_mod (k + j) n ltac:(lia)) as DM. pose proof (Nat.mod_upper_bound (k + j) n ltac:(lia)) as MU.
      set (q := (k + j) / n) in *. set (m := (k + j) mod n) in *.
      replace (ravel s i + (k + j) * nelem s) with ((m * nelem s + ravel s i) + q * (n * nelem s)) by (rewrite DM; lia).
      rewrite Nat.mod_add by nia. apply Nat.mod_small. nia. }
    rewrite MM. rewrite EV by (auto; apply Nat.mod_upper_bound; lia).
    destruct (nth_error (tstore t) _) eqn:EN; auto. apply nth_error_None in EN. rewrite N in EN.
    pose proof (Nat.mod_upper_bound (k + j) n ltac:(lia)). nia.
  - exists c. split; auto. rewrite map_length in *. split; [unfold tshape; now rewrite Lc|].
    intros j k i Ej Hi. assert (Jb : j < length idx) by (apply nth_error_Some; congruence).
    rewrite V by auto. split; [|discriminate]. unfold val. rewrite Ej.
    destruct (elem t ((k + j) mod n :: i)) eqn:X; auto. exfalso. rewrite EV in X by (auto; apply Nat.mod_upper_bound; lia).
    apply nth_error_None in X. rewrite N in X. pose proof (Nat.mod_upper_bound (k + j) n ltac:(lia)). pose proof (ravel_lt _ _ Hi). nia.
Qed.

Lemma singles_map : forall ts, singles (map (@Single A) ts) = Ok ts.
Proof. induction ts as [|t r IH]; auto. cbn [map singles]. now rewrite IH. Qed.
Lemma pairs_map : forall ps, pairs (map (fun p => @Pair A (fst p) (snd p)) ps) = Ok (map fst ps, map snd ps).
Proof. induction ps as [|p r IH]; auto. cbn [map pairs]. now rewrite IH. Qed.

Lemma batch_single : forall t n s idx, packed_tensor t n s -> length s < 16 -> idx <> [] ->
  (forall i, In i idx -> i < n) ->
  exists items c, get_items (tensor_dataset z t None) idx = Ok items /\ default_collate z items = Ok (Single c) /\
    tshape c = length idx :: s /\
    forall j k i, nth_error idx j = Some k -> valid s i ->
      elem c (j :: i) = elem t ((k + j) mod n :: i) /\ elem c (j :: i) <> None.
Proof.
  intros t n s idx P HR HN HI. destruct (stack_rows t n s idx P HR HN HI) as [c [E [S V]]].
  exists (map Single (map (row t s) idx)), c. split; [|split; auto].
  - rewrite (get_items_ok _ (fun i => Single (row t s i))); [now rewrite map_map|].
    intros i Hi. cbn [tensor_dataset dget]. now rewrite (t_row_ok t n s) by auto.
  - unfold default_collate. destruct idx as [|k r]; [congruence|]. cbn [map]. cbv iota.
    change (Single (row t s k) :: map Single (map (row t s) r)) with (map (@Single A) (map (row t s) (k :: r))).
    rewrite singles_map. cbn [bind]. now rewrite E.
Qed.

Lemma batch_pair : forall t n s lt ls idx, packed_tensor t n s -> packed_tensor lt n ls -> length s < 16 -> length ls < 16 ->
  idx <> [] -> (forall i, In i idx -> i < n) ->
  exists items c y, get_items (tensor_dataset z t (Some lt)) idx = Ok items /\ default_collate z items = Ok (Pair c y) /\
    tshape c = length idx :: s /\ tshape y = length idx :: ls /\
    (forall j k i, nth_error idx j = Some k -> valid s i ->
      elem c (j :: i) = elem t ((k + j) mod n :: i) /\ elem c (j :: i) <> None) /\
    (forall j k i, nth_error idx j = Some k -> valid ls i ->
      elem y (j :: i) = elem lt ((k + j) mod n :: i) /\ elem y (j :: i) <> None).
Proof.
  intros t n s lt ls idx P PL HR HRL HN HI. destruct (stack_rows t n s idx P HR HN HI) as [c [E [S V]]].
  destruct (stack_rows lt n ls idx PL HRL HN HI) as [y [Ey [Sy Vy]]].
  exists (map (fun p => Pair (fst p) (snd p)) (map (fun i => (row t s i, row lt ls i)) idx)), c, y. split; [|split; auto].
  - rewrite (get_items_ok _ (fun i => Pair (row t s i) (row lt ls i))); [now rewrite map_map|].
    intros i Hi. cbn [tensor_dataset dget]. rewrite (t_row_ok t n s) by auto. cbn [bind]. now rewrite (t_row_ok lt n ls) by auto.
  - unfold default_collate. destruct idx as [|k r]; [congruence|]. cbn [map fst snd]. cbv iota.
    set (ps := map (fun i => (row t s i, row lt ls i)) r).
    change (Pair (row t s k) (row lt ls k) :: map (fun p => Pair (fst p) (snd p)) ps)
      with (map (fun p => @Pair A (fst p) (snd p)) (map (fun i => (row t s i, row lt ls i)) (k :: r))).
    rewrite pairs_map. cbn [bind fst snd].
    replace (map fst (map (fun i => (row t s i, row lt ls i)) (k :: r))) with (map (row t s) (k :: r)) by (now rewrite map_map).
    replace (map snd (map (fun i => (row t s i, row lt ls i)) (k :: r))) with (map (row lt ls) (k :: r)) by (now rewrite map_map).
    rewrite E. cbn [bind]. now rewrite Ey.
Qed.
End Stack.
