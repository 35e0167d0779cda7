(** Proofs about tensors as JSON. *)
From Coq Require Import List Arith ZArith Bool SpecFloat String Lia.
From Verif Require Import Base IndexSpec LayoutModel TensorModel TensorSpec TensorProofs EncodeModel EncodeSpec EncodeProofs JsonModel JsonSpec.
From Verif Require ScalarModel ScalarSpec ScalarProofs.
From Verif Require Import SmallFloatProofs.
Import ListNotations.
Open Scope Z_scope.

(* ---------- a number that the format has is not rounded ---------- *)

Lemma shr_fexp_gen prec emax m k e : 0 < m -> 0 <= k -> fexp prec emax (Zdigits2 m + k + e) = e + k ->
  shr_fexp prec emax (m * 2 ^ k) e loc_Exact = ({| shr_m := m; shr_r := false; shr_s := false |}, e + k).
Proof.
  intros P K F. unfold shr_fexp. rewrite zdigits_mul by auto. rewrite F. replace (e + k - e) with k by lia. cbn [shr_record_of_loc].
  destruct k as [|p|p]; try lia; unfold shr.
  - rewrite Z.mul_1_r, Z.add_0_r. reflexivity.
  - now rewrite shr_exact.
Qed.
Lemma aux_gen prec emax s m k e : 0 < m -> 0 <= k -> fexp prec emax (Zdigits2 m + k + e) = e + k -> e + k <= emax - prec ->
  binary_round_aux prec emax s (m * 2 ^ k) e loc_Exact = S754_finite s (Z.to_pos m) (e + k).
Proof.
  intros P K F B. unfold binary_round_aux. rewrite shr_fexp_gen by auto. cbn [shr_m loc_of_shr_record round_nearest_even].
  pose proof (shr_fexp_gen prec emax m 0 (e + k) P ltac:(lia)) as E. rewrite Z.mul_1_r in E.
  rewrite E by (replace (Zdigits2 m + 0 + (e + k)) with (Zdigits2 m + k + e) by lia; lia).
  cbn [shr_m]. rewrite Z.add_0_r. destruct m; try lia. destruct (Z.leb_spec (e + k) (emax - prec)); [reflexivity|lia].
Qed.
Lemma round_value prec emax s m k e q t : 0 < m -> 0 <= k -> Z.pos q = m * 2 ^ k ->
  t = fexp prec emax (Zdigits2 m + k + e) -> t <= e + k -> t <= emax - prec ->
  binary_round prec emax s q e = S754_finite s (Z.to_pos (m * 2 ^ (e + k - t))) t.
Proof.
  intros M K Q T L B. unfold binary_round.
  assert (D : Z.pos (digits2_pos q) = Zdigits2 m + k).
  { change (Z.pos (digits2_pos q)) with (Zdigits2 (Z.pos q)). rewrite Q. apply zdigits_mul; lia. }
  rewrite D, <- T. unfold shl_align.
  assert (P1 : 0 < 2 ^ (e + k - t)) by (apply Z.pow_pos_nonneg; lia).
  assert (Z1 : Zdigits2 (m * 2 ^ (e + k - t)) = Zdigits2 m + (e + k - t)) by (apply zdigits_mul; lia).
  destruct (Z_lt_le_dec t e) as [X|X].
  - destruct (t - e) as [|r|r] eqn:R; try lia.
    assert (SH : Z.pos (shift_pos r q) = m * 2 ^ (e + k - t)).
    { rewrite shift_pos_correct, Z.pow_pos_fold, Q. replace (e + k - t) with (Z.pos r + k) by lia. rewrite Z.pow_add_r by lia. ring. }
    rewrite SH. pose proof (aux_gen prec emax s (m * 2 ^ (e + k - t)) 0 t ltac:(now apply Z.mul_pos_pos) ltac:(lia)) as E.
    rewrite Z.mul_1_r, !Z.add_0_r, Z1 in E.
    rewrite E; [reflexivity| |lia]. transitivity (fexp prec emax (Zdigits2 m + k + e)); [f_equal; lia|now symmetry].
  - destruct (t - e) as [|r|r] eqn:R; try lia.
    + assert (t = e) by lia. subst e. rewrite Q. pose proof (aux_gen prec emax s (m * 2 ^ k) 0 t ltac:(rewrite <- Q; lia) ltac:(lia)) as E.
      rewrite Z.mul_1_r, !Z.add_0_r, zdigits_mul in E by lia. rewrite E by (try lia; now rewrite <- T).
      replace (t + k - t) with k by lia. reflexivity.
    + rewrite Q. replace (m * 2 ^ k) with (m * 2 ^ (e + k - t) * 2 ^ (t - e)).
      * assert (0 < m * 2 ^ (e + k - t)) by now apply Z.mul_pos_pos.
        rewrite aux_gen; try lia; [now replace (e + (t - e)) with t by lia|].
        rewrite Z1. replace (e + (t - e)) with t by lia. transitivity (fexp prec emax (Zdigits2 m + k + e)); [f_equal; lia|now symmetry].
      * rewrite <- Z.mul_assoc, <- Z.pow_add_r by lia. do 2 f_equal. lia.
Qed.

(** The numbers with at most [prec] digits in the range of the exponents. *)
Lemma round_fits prec emax s m e : let d := Zdigits2 (Z.pos m) in
  d <= prec -> emin prec emax <= e -> e + d <= emax -> emin prec emax <= emax - prec ->
  let t := fexp prec emax (d + e) in
  t <= e /\ binary_round prec emax s m e = S754_finite s (Z.to_pos (Z.pos m * 2 ^ (e - t))) t.
Proof.
  intros d D E U F t. assert (T : t <= e) by (unfold t, fexp; lia). split; auto.
  rewrite (round_value prec emax s (Z.pos m) 0 e m t); try lia; cbn [Z.pow]; try lia.
  - now rewrite Z.add_0_r.
  - unfold t. fold d. now rewrite Z.add_0_r.
  - unfold t, fexp. lia.
Qed.
(** Through a wider format and back. *)
Lemma round_twice p1 e1 p2 e2 s m e : let d := Zdigits2 (Z.pos m) in
  d <= p1 -> emin p1 e1 <= e -> e + d <= e1 -> emin p1 e1 <= e1 - p1 ->
  d <= p2 -> emin p2 e2 <= e -> e + d <= e2 -> emin p2 e2 <= e2 - p2 ->
  round p2 e2 (round p1 e1 (S754_finite s m e)) = round p2 e2 (S754_finite s m e).
Proof.
  intros d D1 E1 U1 F1 D2 E2 U2 F2. cbn [round].
  destruct (round_fits p1 e1 s m e D1 E1 U1 F1) as [T1 R1]. fold d in T1, R1. rewrite R1. cbn [round].
  destruct (round_fits p2 e2 s m e D2 E2 U2 F2) as [T2 R2]. fold d in T2, R2. rewrite R2.
  set (t1 := fexp p1 e1 (d + e)) in *. set (t2 := fexp p2 e2 (d + e)) in *.
  assert (P1 : 0 < 2 ^ (e - t1)) by (apply Z.pow_pos_nonneg; lia).
  rewrite (round_value p2 e2 s (Z.pos m) (e - t1) t1 _ t2); try lia.
  - now replace (t1 + (e - t1) - t2) with (e - t2) by lia.
  - unfold t2. f_equal. unfold d. lia.
  - unfold t2, fexp. lia.
Qed.
Lemma bounded_facts prec emax m e : bounded prec emax m e = true ->
  let d := Zdigits2 (Z.pos m) in d <= prec /\ emin prec emax <= e /\ e + d <= emax /\ fexp prec emax (d + e) = e.
Proof.
  intros H d. unfold bounded, canonical_mantissa in H. apply andb_prop in H. destruct H as [C B].
  apply Zeq_bool_eq in C. apply Z.leb_le in B. change (Z.pos (digits2_pos m)) with d in C. unfold fexp in *. lia.
Qed.
Lemma round_valid prec emax x : emin prec emax <= emax - prec -> valid_binary prec emax x = true -> round prec emax x = x.
Proof.
  intros F. destruct x as [s|s| |s m e]; cbn [round valid_binary]; auto. intros V.
  destruct (bounded_facts prec emax m e V) as (D & E & U & C).
  destruct (round_fits prec emax s m e D E U F) as [_ R]. rewrite R, C, Z.sub_diag, Z.mul_1_r. reflexivity.
Qed.
Lemma widen_narrow prec emax p2 e2 x : prec <= p2 -> emin p2 e2 <= emin prec emax -> emax <= e2 -> emin p2 e2 <= e2 - p2 ->
  emin prec emax <= emax - prec -> valid_binary prec emax x = true -> round prec emax (round p2 e2 x) = x.
Proof.
  intros A B C D E V. rewrite <- (round_valid prec emax x) at 2 by auto.
  destruct x as [s|s| |s m e]; try reflexivity. cbn [valid_binary] in V.
  destruct (bounded_facts prec emax m e V) as (D1 & E1 & U1 & C1). apply round_twice; lia.
Qed.

(* ---------- one element ---------- *)

Definition small : dtype -> Prop := fun d => d = F8E4M3 \/ d = F8E5M2.
Lemma digits_small m : Z.pos m < 16 -> 1 <= Zdigits2 (Z.pos m) <= 4.
Proof.
  intros H. rewrite zdigits_log by lia. pose proof (Z.log2_nonneg (Z.pos m)).
  assert (Z.log2 (Z.pos m) < 4) by (apply Z.log2_lt_pow2; lia). lia.
Qed.
Lemma f8_f64 d x : small d -> in_format d x -> round 24 128 (round 53 1024 x) = round 24 128 x.
Proof.
  intros [-> | ->] V; destruct x as [s|s| |s m e]; try reflexivity.
  - destruct V as (M & E & _). apply digits_small in M.
    apply round_twice; change (emin 53 1024) with (-1074); change (emin 24 128) with (-149); lia.
  - cbn [in_format valid_binary] in V. destruct (bounded_facts 3 16 m e V) as (D1 & E1 & U1 & _). change (emin 3 16) with (-16) in E1.
    apply round_twice; change (emin 53 1024) with (-1074); change (emin 24 128) with (-149); lia.
Qed.
Lemma float_back f8 d x : f8_ok f8 -> is_float d = true -> in_format d x -> finite (CF x) -> of_f64 f8 d (to_f64 d x) = x.
Proof.
  intros H F V N. destruct d; try discriminate F; cbn [of_f64 to_f64].
  - rewrite (f8_f64 F8E4M3) by (auto; now left). apply H; auto.
  - rewrite (f8_f64 F8E5M2) by (auto; now right). apply H; auto.
  - apply widen_narrow; auto; discriminate.
  - apply widen_narrow; auto; discriminate.
  - apply widen_narrow; auto; discriminate.
  - reflexivity.
Qed.
Lemma round_finite_f64 d x : is_float d = true -> in_format d x -> finite (CF x) ->
  exists n, from_f64 (to_f64 d x) = Some n /\ n = Float (to_f64 d x).
Proof.
  intros F V N. destruct x as [s|s| |s m e]; try contradiction N; [destruct d; discriminate F + (eexists; split; reflexivity)|].
  assert (G : exists m' e', to_f64 d (S754_finite s m e) = S754_finite s m' e').
  { assert (W : exists prec emax, bounded prec emax m e = true /\ prec <= 53 /\ -1074 <= emin prec emax /\ emax <= 1024 \/
                Z.pos m < 16 /\ -9 <= e <= 5).
    { destruct d; try discriminate F; cbn [in_format valid_binary] in V.
      - exists 0, 0. right. tauto.
      - exists 3, 16. left. split; auto. unfold emin. lia.
      - exists 8, 128. left. split; auto. unfold emin. lia.
      - exists 11, 16. left. split; auto. unfold emin. lia.
      - exists 24, 128. left. split; auto. unfold emin. lia.
      - exists 53, 1024. left. split; auto. unfold emin. lia. }
    assert (Z : d = F64 \/ to_f64 d (S754_finite s m e) = binary_round 53 1024 s m e) by (destruct d; auto).
    destruct Z as [-> | ->]; [cbn; eauto|].
    destruct W as (p & em & [(B & P & I & U)|(M & E)]).
    - destruct (bounded_facts p em m e B) as (D1 & E1 & U1 & _).
      destruct (round_fits 53 1024 s m e) as [_ R]; try (rewrite R; eauto); change (emin 53 1024) with (-1074); lia.
    - apply digits_small in M.
      destruct (round_fits 53 1024 s m e) as [_ R]; try (rewrite R; eauto); change (emin 53 1024) with (-1074); lia. }
  destruct G as (m' & e' & ->). cbn. eauto.
Qed.

Lemma in_range_fits d n : is_float d = false -> d <> BOOL -> (in_range d n <-> ScalarSpec.fits (int_type d) n).
Proof.
  intros F B. unfold ScalarSpec.fits. destruct d; try discriminate F; try congruence;
    cbn [in_range int_type ScalarModel.lowest ScalarModel.highest]; lia.
Qed.
Lemma cell_back f8 d c : f8_ok f8 -> cell_ok d c -> finite c -> json_to_cell f8 d (cell_to_json d c) = Some c.
Proof.
  intros H V N. destruct c as [b|n|x].
  - cbn in V. subst d. reflexivity.
  - destruct V as (F & B & W). apply (in_range_fits d n F B) in W. cbn [cell_to_json]. unfold from_int.
    pose proof (ScalarProofs.cut_fits (int_type d) n W) as C. unfold ScalarSpec.fits in W.
    destruct d; try discriminate F; try congruence; cbn [int_type] in *; cbn [ScalarModel.lowest ScalarModel.highest] in W;
      unfold json_to_cell, as_u64, as_i64; cbn [int_type];
      destruct (Z.ltb_spec n 0); try lia; cbn [option_map]; try (rewrite C; reflexivity); try reflexivity;
      destruct (Z.leb_spec n (2 ^ 63 - 1)); try lia; cbn [option_map]; try (rewrite C; reflexivity); reflexivity.
  - assert (F : is_float d = true) by (destruct d; cbn in V; try contradiction; reflexivity).
    cbn [cell_to_json]. unfold float_to_json. destruct (round_finite_f64 d x F V N) as (n & E & ->). rewrite E.
    pose proof (float_back f8 d x H F V N) as G.
    destruct d; try discriminate F; cbn [json_to_cell as_f64 option_map]; rewrite G; reflexivity.
Qed.
(** What is not finite is written as null, and null is refused. *)
Lemma cell_lost f8 d c : cell_ok d c -> ~ finite c -> json_to_cell f8 d (cell_to_json d c) = None.
Proof.
  intros V N. destruct c as [b|n|x]; try (exfalso; apply N; exact I).
  destruct x as [s|s| |s m e]; try (exfalso; apply N; exact I);
    destruct d; cbn in V; try contradiction; try discriminate V; reflexivity.
Qed.

(* ---------- the whole tensor ---------- *)

Lemma collect_map {A B} (f : A -> option B) g l : (forall b, In b l -> f (g b) = Some b) -> collect_opt f (map g l) = Ok l.
Proof.
  induction l as [|b l IH]; intros H; cbn [map collect_opt]; auto.
  rewrite H by now left. cbn [ok_or bind]. rewrite IH by (intros; apply H; now right). reflexivity.
Qed.
Lemma collect_none {A B} (f : A -> option B) l : (exists a, In a l /\ f a = None) -> exists e, collect_opt f l = Err e.
Proof.
  induction l as [|b l IH]; intros (a & I & N); [contradiction|]. cbn [collect_opt].
  destruct (f b) eqn:E; cbn [ok_or bind]; [|eauto].
  destruct I as [-> |I]; [congruence|]. destruct IH as [e ->]; eauto. cbn. eauto.
Qed.
Lemma collect_ok {A B} (f : A -> option B) l r : collect_opt f l = Ok r -> Forall2 (fun a b => f a = Some b) l r.
Proof.
  revert r. induction l as [|a l IH]; intros r; cbn [collect_opt].
  - intros E. injection E as <-. constructor.
  - destruct (f a) eqn:E; cbn [ok_or bind]; [|discriminate]. destruct (collect_opt f l) as [bs| |]; try discriminate.
    cbn [bind]. intros X. injection X as <-. constructor; auto.
Qed.
Lemma collect_total {A B} (f : A -> option B) l : collect_opt f l <> Panic.
Proof.
  induction l as [|a l IH]; cbn [collect_opt]; [discriminate|].
  destruct (f a); cbn [ok_or bind]; [|discriminate]. destruct (collect_opt f l); cbn [bind]; congruence.
Qed.

Lemma size64_gen (checked : bool) dims : forall a, 0 <= a -> Forall (fun d => 0 <= d) dims ->
  (forall k, a * fold_right Z.mul 1 (firstn k dims) < 2 ^ 64) ->
  fold_left (fun (acc : outcome Z) d => do x <- acc ;
    if x * d <? 2 ^ 64 then Ok (x * d) else if checked then Panic else Ok (x * d mod 2 ^ 64)) dims (Ok a)
  = Ok (a * fold_right Z.mul 1 dims).
Proof.
  induction dims as [|d ds IH]; intros a A N H; cbn [fold_left fold_right]; [now rewrite Z.mul_1_r|].
  cbn [bind]. inversion N; subst. pose proof (H 1%nat) as H1. cbn [firstn fold_right] in H1. rewrite Z.mul_1_r in H1.
  destruct (Z.ltb_spec (a * d) (2 ^ 64)); [|lia]. rewrite IH; auto.
  - f_equal. ring.
  - now apply Z.mul_nonneg_nonneg.
  - intros k. specialize (H (S k)). cbn [firstn fold_right] in H. lia.
Qed.
Lemma size64_fits checked dims : Forall (fun d => 0 <= d) dims -> sizes_fit dims -> size64 checked dims = Ok (product dims).
Proof.
  intros N H. unfold size64. rewrite size64_gen; auto; try lia.
  - now rewrite Z.mul_1_l.
  - intros k. rewrite Z.mul_1_l. apply H.
Qed.
Lemma product_nat s : product (map Z.of_nat s) = Z.of_nat (nelem s).
Proof. unfold product. induction s as [|d s IH]; [reflexivity|]. cbn [map fold_right]. rewrite IH. unfold nelem. cbn [fold_right]. lia. Qed.

Lemma reads_holds {A} (P : A -> Prop) (t : tensor A) l : reads t l -> (Forall P l <-> holds_only P t).
Proof.
  unfold reads, holds_only. intros R. rewrite Forall_forall. split.
  - intros H i a V E. apply H. assert (I : In (elem t i) (map (elem t) (all_idx (tshape t)))) by (apply in_map, in_all_idx; auto).
    rewrite R, E in I. apply in_map_iff in I. destruct I as (b & Eb & Ib). congruence.
  - intros H a I. assert (J : In (Some a) (map Some l)) by now apply in_map. rewrite <- R in J.
    apply in_map_iff in J. destruct J as (i & E & Ii). apply (H i); auto. now apply in_all_idx.
Qed.

Lemma reads_same {A} (t u : tensor A) l : tshape t = tshape u -> reads t l -> reads u l ->
  forall i, valid (tshape t) i -> elem t i = elem u i.
Proof.
  unfold reads. intros S R U i V. rewrite <- S, <- R in U. apply in_all_idx in V.
  revert U V. generalize (all_idx (tshape t)). intros w. induction w as [|j w IH]; cbn; intros U V; [contradiction|].
  injection U as U1 U2. destruct V as [-> |V]; auto.
Qed.
Lemma save_list d t : plainly_stored t -> exists l, reads t l /\
  tensor_to_json d t = Ok (Obj [("shape", Arr (map (fun n => Num (from_int (Z.of_nat n))) (tshape t)));
           ("dtype", Str (dname d)); ("data", Arr (map (cell_to_json d) l))])%string.
Proof.
  intros (G & C & O). destruct (flatten_partial cell t G C O) as (l & E & R). exists l. split; auto.
  unfold tensor_to_json. rewrite E. reflexivity.
Qed.
Lemma dims_back s : collect_opt as_u64 (map (fun n => Num (from_int (Z.of_nat n))) s) = Ok (map Z.of_nat s).
Proof.
  induction s as [|n s IH]; [reflexivity|]. cbn [map collect_opt]. unfold from_int at 1. destruct (Z.ltb_spec (Z.of_nat n) 0); [lia|].
  cbn [as_u64 ok_or bind]. rewrite IH. reflexivity.
Qed.
Lemma name_back d : str_to_dtype (dname d) = Some d.
Proof. destruct d; reflexivity. Qed.
Lemma load_list checked f8 d s vs :
  json_to_tensor checked f8 (Obj [("shape", Arr (map (fun n => Num (from_int (Z.of_nat n))) s)); ("dtype", Str (dname d)); ("data", Arr vs)])%string
  = do values <- collect_opt (json_to_cell f8 d) vs ; do n <- size64 checked (map Z.of_nat s) ;
    if negb (n =? Z.of_nat (List.length values)) then Err EShape else Ok (mkLoaded d (map Z.of_nat s) values).
Proof.
  unfold json_to_tensor. cbn [as_object ok_or bind get String.eqb Ascii.eqb Bool.eqb as_array as_str].
  rewrite dims_back. cbn [bind]. rewrite name_back. reflexivity.
Qed.
Lemma save_load checked f8 d t : f8_ok f8 -> plainly_stored t -> holds_only (cell_ok d) t -> holds_only finite t ->
  sizes_fit (map Z.of_nat (tshape t)) ->
  exists j r, tensor_to_json d t = Ok j /\ json_to_tensor checked f8 j = Ok r /\ restored d t r.
Proof.
  intros H P V N Z. destruct (save_list d t P) as (l & R & E). eexists. exists (mkLoaded d (map Z.of_nat (tshape t)) l).
  split; [exact E|]. rewrite load_list. apply (reads_holds _ t l R) in V. apply (reads_holds _ t l R) in N.
  rewrite Forall_forall in V, N. rewrite collect_map by (intros c I; apply cell_back; auto). cbn [bind].
  assert (Zp : Forall (fun x => 0 <= x) (map Z.of_nat (tshape t))) by (rewrite Forall_forall; intros x X; apply in_map_iff in X; destruct X as (y & <- & _); lia).
  rewrite size64_fits by auto. cbn [bind]. pose proof (reads_length _ t l R) as Le. rewrite product_nat, <- Le, Z.eqb_refl. cbn [negb].
  split; [reflexivity|]. unfold restored, as_tensor. cbn [ldtype ldims ldata].
  assert (M : map Z.to_nat (map Z.of_nat (tshape t)) = tshape t).
  { rewrite map_map. transitivity (map (fun x : nat => x) (tshape t)); [|apply map_id]. apply map_ext. intros. apply Nat2Z.id. }
  rewrite M. assert (G : good (mkT l (from_shape (tshape t)))) by now apply from_shape_good.
  split; [reflexivity|]. split; [reflexivity|]. split; [exact G|]. intros i Vi.
  apply (reads_same (mkT l (from_shape (tshape t))) t l); auto. apply (contig_exact_reads _ (mkT l (from_shape (tshape t)))); auto.
  apply LayoutProofs.from_shape_contiguous.
Qed.
Lemma save_lost checked f8 d t : plainly_stored t -> holds_only (cell_ok d) t -> ~ holds_only finite t ->
  exists j e, tensor_to_json d t = Ok j /\ json_to_tensor checked f8 j = Err e.
Proof.
  intros P V N. destruct (save_list d t P) as (l & R & E). eexists. apply (reads_holds _ t l R) in V.
  assert (B : exists c, In c l /\ ~ finite c).
  { assert (D : forall c, {finite c} + {~ finite c}).
    { intros [b|n|[s|s| |s m e]]; cbn; auto. }
    destruct (Forall_Exists_dec finite D l) as [F|F].
    - exfalso. apply N. now apply (reads_holds _ t l R).
    - apply Exists_exists in F. exact F. }
  destruct B as (c & I & F). rewrite Forall_forall in V.
  destruct (collect_none (json_to_cell f8 d) (map (cell_to_json d) l)) as [e X].
  { exists (cell_to_json d c). split; [now apply in_map|]. apply cell_lost; auto. }
  exists e. split; [exact E|]. rewrite load_list, X. reflexivity.
Qed.
Lemma save_many checked f8 (H : f8_ok f8) : forall l,
  Forall (fun x => let '(d, t) := snd x in plainly_stored t /\ holds_only (cell_ok d) t /\ holds_only finite t /\ sizes_fit (map Z.of_nat (tshape t))) l ->
  exists j rs, many_to_json l = Ok j /\ many_of_json checked f8 j = Ok rs /\
    Forall2 (fun x y => fst x = fst y /\ restored (fst (snd x)) (snd (snd x)) (snd y)) l rs.
Proof.
  intros l. induction 1 as [|[k [d t]] l (P & V & N & Z) F IH]; [exists [], []; repeat split; constructor|].
  destruct IH as (j & rs & E1 & E2 & R). destruct (save_load checked f8 d t H P V N Z) as (v & r & S1 & S2 & Rr).
  exists ((k, v) :: j), ((k, r) :: rs). cbn [many_to_json many_of_json]. rewrite S1, E1, S2, E2. cbn [bind].
  split; [reflexivity|]. split; [reflexivity|]. constructor; cbn; auto.
Qed.

(* ---------- loading any value ---------- *)

Lemma bind_ok {A B} (x : outcome A) (f : A -> outcome B) b : bind x f = Ok b -> exists a, x = Ok a /\ f a = Ok b.
Proof. destruct x; cbn; try discriminate. eauto. Qed.
Lemma ok_or_ok {A} (o : option A) e a : ok_or o e = Ok a -> o = Some a.
Proof. destruct o; cbn; congruence. Qed.
Lemma load_parts checked f8 v r : json_to_tensor checked f8 v = Ok r ->
  exists obj name vs n, v = Obj obj /\ get "shape" obj = Some (Arr (map (fun n => Num (PosInt n)) (ldims r))) /\
    get "dtype" obj = Some (Str name) /\ to_lowercase name = dname (ldtype r) /\ get "data" obj = Some (Arr vs) /\
    Forall2 (fun v c => json_to_cell f8 (ldtype r) v = Some c) vs (ldata r) /\
    size64 checked (ldims r) = Ok n /\ n = Z.of_nat (List.length (ldata r)).
Proof.
  unfold json_to_tensor. intros E.
  apply bind_ok in E. destruct E as (obj & E1 & E). apply ok_or_ok in E1.
  apply bind_ok in E. destruct E as (sh & E2 & E). apply ok_or_ok in E2.
  apply bind_ok in E. destruct E as (dims & E3 & E). apply collect_ok in E3.
  apply bind_ok in E. destruct E as (name & E4 & E). apply ok_or_ok in E4.
  apply bind_ok in E. destruct E as (d & E5 & E). apply ok_or_ok in E5.
  apply bind_ok in E. destruct E as (vs & E6 & E). apply ok_or_ok in E6.
  apply bind_ok in E. destruct E as (cs & E7 & E). apply collect_ok in E7.
  apply bind_ok in E. destruct E as (n & E8 & E).
  destruct (Z.eqb_spec n (Z.of_nat (List.length cs))) as [En|]; cbn [negb] in E; [|discriminate]. injection E as <-. cbn [ldims ldtype ldata].
  exists obj, name, vs, n. destruct v; cbn in E1; try discriminate. injection E1 as <-. split; [reflexivity|].
  destruct (get "shape" l) as [[]|]; cbn in E2; try discriminate. injection E2 as <-.
  destruct (get "dtype" l) as [[]|]; cbn in E4; try discriminate. injection E4 as <-.
  destruct (get "data" l) as [[]|]; cbn in E6; try discriminate. injection E6 as <-.
  apply str_to_dtype_iff in E5.
  assert (X : l0 = map (fun n => Num (PosInt n)) dims).
  { clear - E3. induction E3 as [|a b l0 l0' Hab _ IH]; cbn; auto. rewrite IH. f_equal. destruct a as [| | [] | | |]; cbn in Hab; try discriminate. congruence. }
  rewrite X. repeat split; auto.
Qed.
Lemma of_nearest f8 d x : is_float d = true -> nearest d x (of_f64 f8 d x).
Proof. destruct d; try discriminate; intros _; cbn; auto. Qed.
Lemma cell_keeps f8 d v c : wf_number v -> ~ outside d v -> json_to_cell f8 d v = Some c -> keeps d v c.
Proof.
  intros W O E.
  assert (I : forall n, is_float d = false -> d <> BOOL -> v = Num (from_int n) -> ScalarModel.cut (int_type d) n = n).
  { intros n F B S. apply ScalarProofs.cut_fits. unfold ScalarSpec.fits.
    destruct (Z_le_dec (ScalarModel.lowest (int_type d)) n) as [A|A]; [destruct (Z_le_dec n (ScalarModel.highest (int_type d))) as [A'|A']; [lia|]|];
      exfalso; apply O; (split; [auto|split; [auto|exists n; split; [exact S|rewrite (in_range_fits d n F B); unfold ScalarSpec.fits; lia]]]). }
  assert (Pn : forall n, v = Num (PosInt n) -> v = Num (from_int n)).
  { intros n ->. cbn in W. unfold from_int. destruct (Z.ltb_spec n 0); [lia|reflexivity]. }
  assert (Nn : forall n, v = Num (NegInt n) -> v = Num (from_int n)).
  { intros n ->. cbn in W. unfold from_int. destruct (Z.ltb_spec n 0); [reflexivity|lia]. }
  assert (U : forall n, as_u64 v = Some n -> v = Num (from_int n)).
  { intros n A. apply Pn. destruct v as [| |[] | | |]; cbn in A; congruence. }
  assert (S : forall n, as_i64 v = Some n -> v = Num (from_int n)).
  { intros n A. destruct v as [| |[p|p|p] | | |]; try discriminate A.
    - cbn [as_i64] in A. destruct (p <=? 2 ^ 63 - 1); [|discriminate A]. injection A as <-. now apply Pn.
    - cbn [as_i64] in A. injection A as <-. now apply Nn. }
  assert (Fl : forall x, as_f64 v = Some x -> states_float v x).
  { intros x A. destruct v as [| |[p|p|p] | | |]; try discriminate A; cbn [as_f64] in A.
    - injection A as <-. right. exists p. auto.
    - injection A as <-. right. exists p. auto.
    - injection A as <-. now left. }
  destruct (is_float d) eqn:Fd.
  - assert (E' : option_map (fun x => CF (of_f64 f8 d x)) (as_f64 v) = Some c) by (destruct d; try discriminate Fd; exact E).
    destruct (as_f64 v) as [x|] eqn:A; cbn in E'; [|discriminate]. injection E' as <-. split; [exact Fd|].
    exists x. split; auto. now apply of_nearest.
  - destruct d; try discriminate Fd; cbn [json_to_cell] in E.
    + destruct v; cbn in E; try discriminate. injection E as <-. split; reflexivity.
    + destruct (as_u64 v) as [n|] eqn:A; cbn [option_map] in E; [|discriminate]. rewrite (I n) in E by (auto; discriminate). injection E as <-. split; [reflexivity|]. split; [discriminate|exact (U n eq_refl)].
    + destruct (as_u64 v) as [n|] eqn:A; cbn [option_map] in E; [|discriminate]. rewrite (I n) in E by (auto; discriminate). injection E as <-. split; [reflexivity|]. split; [discriminate|exact (U n eq_refl)].
    + destruct (as_u64 v) as [n|] eqn:A; cbn [option_map] in E; [|discriminate]. rewrite (I n) in E by (auto; discriminate). injection E as <-. split; [reflexivity|]. split; [discriminate|exact (U n eq_refl)].
    + destruct (as_u64 v) as [n|] eqn:A; cbn [option_map] in E; [|discriminate]. injection E as <-. split; [reflexivity|]. split; [discriminate|exact (U n eq_refl)].
    + destruct (as_i64 v) as [n|] eqn:A; cbn [option_map] in E; [|discriminate]. rewrite (I n) in E by (auto; discriminate). injection E as <-. split; [reflexivity|]. split; [discriminate|exact (S n eq_refl)].
    + destruct (as_i64 v) as [n|] eqn:A; cbn [option_map] in E; [|discriminate]. rewrite (I n) in E by (auto; discriminate). injection E as <-. split; [reflexivity|]. split; [discriminate|exact (S n eq_refl)].
    + destruct (as_i64 v) as [n|] eqn:A; cbn [option_map] in E; [|discriminate]. rewrite (I n) in E by (auto; discriminate). injection E as <-. split; [reflexivity|]. split; [discriminate|exact (S n eq_refl)].
    + destruct (as_i64 v) as [n|] eqn:A; cbn [option_map] in E; [|discriminate]. injection E as <-. split; [reflexivity|]. split; [discriminate|exact (S n eq_refl)].
Qed.
Lemma load_keeps checked f8 v r : json_to_tensor checked f8 v = Ok r ->
  exists obj name vs, v = Obj obj /\ get "shape" obj = Some (Arr (map (fun n => Num (PosInt n)) (ldims r))) /\
    get "dtype" obj = Some (Str name) /\ to_lowercase name = dname (ldtype r) /\ get "data" obj = Some (Arr vs) /\
    List.length vs = List.length (ldata r) /\
    (Forall (fun d => 0 <= d) (ldims r) -> sizes_fit (ldims r) -> product (ldims r) = Z.of_nat (List.length vs)) /\
    forall k w c, nth_error vs k = Some w -> nth_error (ldata r) k = Some c -> wf_number w -> ~ outside (ldtype r) w -> keeps (ldtype r) w c.
Proof.
  intros E. destruct (load_parts checked f8 v r E) as (obj & name & vs & n & E1 & E2 & E3 & E4 & E5 & F & Z & N).
  assert (L : List.length vs = List.length (ldata r)) by (clear - F; induction F; cbn; auto).
  exists obj, name, vs. do 6 (split; [assumption|]). split.
  - intros P S. rewrite size64_fits in Z by auto. injection Z as Z. rewrite Z, N, L. reflexivity.
  - intros k w c Hw Hc W O. apply (cell_keeps f8); auto. clear - F Hw Hc. revert k Hw Hc.
    induction F as [|a b l l' Hab _ IH]; intros [|k] Hw Hc; cbn in Hw, Hc; try discriminate; [congruence|eauto].
Qed.
(** Loading never panics without overflow checks, and with them only in the product of the sizes. *)
Lemma size64_total dims a : fold_left (fun (acc : outcome Z) d => do x <- acc ;
    if x * d <? 2 ^ 64 then Ok (x * d) else if false then Panic else Ok (x * d mod 2 ^ 64)) dims (Ok a) <> Panic.
Proof. revert a. induction dims as [|d ds IH]; intros a; cbn [fold_left]; [discriminate|]. cbn [bind]. destruct (_ <? _); apply IH. Qed.
Lemma load_total f8 v : json_to_tensor false f8 v <> Panic.
Proof.
  unfold json_to_tensor. destruct v; cbn [as_object ok_or bind]; try discriminate.
  destruct (get "shape" l) as [[]|]; cbn [as_array ok_or bind]; try discriminate.
  destruct (collect_opt as_u64 l0) as [dims| |] eqn:C; cbn [bind]; try discriminate; [|exfalso; now apply (collect_total as_u64 l0)].
  destruct (get "dtype" l) as [[]|]; cbn [as_str ok_or bind]; try discriminate.
  destruct (str_to_dtype s) as [d|]; cbn [ok_or bind]; try discriminate.
  destruct (get "data" l) as [[]|]; cbn [as_array ok_or bind]; try discriminate.
  destruct (collect_opt (json_to_cell f8 d) l1) as [cs| |] eqn:C2; cbn [bind]; try discriminate; [|exfalso; now apply (collect_total (json_to_cell f8 d) l1)].
  assert (T : size64 false dims <> Panic) by exact (size64_total dims 1). destruct (size64 false dims); cbn [bind]; try discriminate; [|congruence].
  destruct (negb _); discriminate.
Qed.

(* ---------- an 8-bit float crate, for the examples ---------- *)

Definition f8_example (d : dtype) (x : spec_float) : spec_float :=
  match d with
  | F8E5M2 => round 3 16 x
  | _ => match round 4 8 x with S754_infinity _ => round 4 9 x | y => y end
  end.
