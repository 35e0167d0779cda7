From Coq Require Import List Arith ZArith Bool Lia Permutation.
From Verif Require Import Base EncodeModel AtomicModel AtomicSpec.
Import ListNotations.
Open Scope Z_scope.

Definition field (W s w : Z) : Z := (W / 2 ^ s) mod 2 ^ w.

Lemma field_bit : forall W s w j, 0 <= s -> 0 <= w -> 0 <= j ->
  Z.testbit (field W s w) j = (j <? w) && Z.testbit W (j + s).
Proof.
  intros W s w j S Hw J. unfold field. destruct (Z.ltb_spec j w).
  - rewrite Z.mod_pow2_bits_low by lia. rewrite Z.div_pow2_bits by lia. reflexivity.
  - rewrite Z.mod_pow2_bits_high by lia. reflexivity.
Qed.

Lemma mask_bit : forall s w j, 0 <= s -> 0 <= w -> s + w <= 32 -> 0 <= j ->
  Z.testbit (2 ^ 32 - 1 - Z.shiftl (2 ^ w - 1) s) j
  = (j <? 32) && negb ((s <=? j) && (j <? s + w)).
Proof.
  intros s w j S W B J.
  replace (2 ^ 32 - 1) with (Z.ones 32) by reflexivity.
  replace (2 ^ w - 1) with (Z.ones w) by (rewrite Z.ones_equiv; lia).
  rewrite Z.sub_nocarry_ldiff.
  - rewrite Z.ldiff_spec, Z.shiftl_spec by lia.
    rewrite !Z.testbit_ones by lia.
    destruct (Z.leb_spec 0 j); [|lia]. cbn [andb].
    destruct (Z.leb_spec s j), (Z.leb_spec 0 (j - s)), (Z.ltb_spec j 32),
      (Z.ltb_spec (j - s) w), (Z.ltb_spec j (s + w)); try lia; reflexivity.
  - apply Z.bits_inj'. intros n N. rewrite Z.ldiff_spec, Z.shiftl_spec, Z.bits_0 by lia.
    rewrite !Z.testbit_ones by lia.
    destruct (Z.leb_spec 0 n); [|lia]. cbn [andb].
    destruct (Z.leb_spec 0 (n - s)), (Z.ltb_spec n 32), (Z.ltb_spec (n - s) w);
      try lia; reflexivity.
Qed.

Definition mix (W u s w : Z) : Z :=
  Z.lor (Z.land W (2 ^ 32 - 1 - Z.shiftl (2 ^ w - 1) s)) (Z.shiftl u s).

Lemma small_bits : forall u w j, 0 <= u < 2 ^ w -> 0 <= w -> w <= j ->
  Z.testbit u j = false.
Proof.
  intros u w j U W J. rewrite <- (Z.mod_small u (2 ^ w)) by lia.
  apply Z.mod_pow2_bits_high. lia.
Qed.

Lemma mix_bit : forall W u s w j, 0 <= s -> 0 <= w -> s + w <= 32 -> 0 <= j ->
  0 <= u < 2 ^ w ->
  Z.testbit (mix W u s w) j =
  if (s <=? j) && (j <? s + w) then Z.testbit u (j - s)
  else (j <? 32) && Z.testbit W j.
Proof.
  intros W u s w j S Hw B J U. unfold mix.
  rewrite Z.lor_spec, Z.land_spec, mask_bit, Z.shiftl_spec by lia.
  destruct (Z.leb_spec s j) as [A|A]; destruct (Z.ltb_spec j (s + w)) as [C|C]; cbn [andb negb].
  - rewrite !andb_false_r. reflexivity.
  - rewrite (small_bits u w (j - s)) by lia. rewrite !andb_true_r, orb_false_r.
    apply andb_comm.
  - rewrite (Z.testbit_neg_r u (j - s)) by lia. rewrite !andb_true_r, orb_false_r.
    apply andb_comm.
  - rewrite (Z.testbit_neg_r u (j - s)) by lia. rewrite !andb_true_r, orb_false_r.
    apply andb_comm.
Qed.

Lemma mix_same : forall W u s w, 0 <= s -> 0 <= w -> s + w <= 32 -> 0 <= u < 2 ^ w ->
  field (mix W u s w) s w = u.
Proof.
  intros W u s w S Hw B U. apply Z.bits_inj'. intros j J.
  rewrite field_bit, mix_bit by lia.
  destruct (Z.ltb_spec j w) as [L|L]; cbn [andb].
  - destruct (Z.leb_spec s (j + s)); [|lia]. destruct (Z.ltb_spec (j + s) (s + w)); [|lia].
    cbn [andb]. f_equal. lia.
  - symmetry. apply (small_bits u w); lia.
Qed.

Lemma mix_other : forall W u s w s', 0 <= s -> 0 <= w -> s + w <= 32 -> 0 <= u < 2 ^ w ->
  0 <= s' -> s' + w <= 32 -> s' + w <= s \/ s + w <= s' ->
  field (mix W u s w) s' w = field W s' w.
Proof.
  intros W u s w s' S Hw B U S' B' D. apply Z.bits_inj'. intros j J.
  rewrite !field_bit, mix_bit by lia.
  destruct (Z.ltb_spec j w) as [L|L]; cbn [andb]; [|reflexivity].
  destruct (Z.leb_spec s (j + s')); destruct (Z.ltb_spec (j + s') (s + w)); cbn [andb];
    try lia; destruct (Z.ltb_spec (j + s') 32); try lia; reflexivity.
Qed.

Lemma mix_range : forall W u s w, 0 <= s -> 0 <= w -> s + w <= 32 -> 0 <= u < 2 ^ w ->
  0 <= W < 2 ^ 32 -> 0 <= mix W u s w < 2 ^ 32.
Proof.
  intros W u s w S Hw B U R.
  assert (N : 0 <= mix W u s w).
  { unfold mix. apply Z.lor_nonneg. split; [apply Z.land_nonneg; left; lia|].
    apply Z.shiftl_nonneg. lia. }
  split; [exact N|].
  assert (E : mix W u s w = mix W u s w mod 2 ^ 32).
  { apply Z.bits_inj'. intros j J. destruct (Z.ltb_spec j 32).
    - rewrite Z.mod_pow2_bits_low by lia. reflexivity.
    - rewrite Z.mod_pow2_bits_high by lia. rewrite mix_bit by lia.
      destruct (Z.leb_spec s j), (Z.ltb_spec j (s + w)), (Z.ltb_spec j 32); try lia; reflexivity. }
  rewrite E. apply Z.mod_pos_bound. lia.
Qed.

(** ** Lanes *)

Lemma mod4_cases : forall a, (a mod 4 = 0 \/ a mod 4 = 1 \/ a mod 4 = 2 \/ a mod 4 = 3)%nat.
Proof. intros a. assert (a mod 4 < 4)%nat by (apply Nat.mod_upper_bound; lia). lia. Qed.

Lemma bit1 : forall a, Nat.testbit a 1 = (2 <=? a mod 4)%nat.
Proof.
  intros a.
  assert (E : a = (4 * (a / 4) + a mod 4)%nat) by (apply Nat.div_mod; lia).
  rewrite E at 1. set (q := (a / 4)%nat). 
  replace 1%nat with (S 0) by reflexivity.
  destruct (mod4_cases a) as [-> | [-> | [-> | ->]]].
  - replace (4 * q + 0)%nat with (2 * (2 * q))%nat by lia.
    rewrite Nat.testbit_even_succ by lia. apply Nat.testbit_even_0.
  - replace (4 * q + 1)%nat with (2 * (2 * q) + 1)%nat by lia.
    rewrite Nat.testbit_odd_succ by lia. apply Nat.testbit_even_0.
  - replace (4 * q + 2)%nat with (2 * (2 * q + 1))%nat by lia.
    rewrite Nat.testbit_even_succ by lia. apply Nat.testbit_odd_0.
  - replace (4 * q + 3)%nat with (2 * (2 * q + 1) + 1)%nat by lia.
    rewrite Nat.testbit_odd_succ by lia. apply Nat.testbit_odd_0.
Qed.

Lemma even_mod4 : forall a, (a mod 2 = 0 -> a mod 4 = 0 \/ a mod 4 = 2)%nat.
Proof.
  intros a E. pose proof (mod4_cases a) as C.
  assert (D : a = (4 * (a / 4) + a mod 4)%nat) by (apply Nat.div_mod; lia).
  assert (D2 : a = (2 * (a / 2) + a mod 2)%nat) by (apply Nat.div_mod; lia).
  lia.
Qed.

(** The type and the lane of a call that is not of an eight bit float. *)
Definition suits (d : dtype) (l : lane) : Prop :=
  lane_of d = Some l /\ eight_bit_float d = false.

(** Where the element lies in its word. *)
Definition place_of (d : dtype) (a : nat) : Z := 8 * Z.of_nat (a mod word_bytes d).

Lemma suits_word : forall d l a, suits d l -> word l a = (a / word_bytes d)%nat.
Proof. intros d l a [E F]. destruct d; cbn in E, F; try discriminate; injection E as <-; reflexivity. Qed.

Lemma current_spec : forall d l a W, suits d l -> (a mod bytes d = 0)%nat ->
  0 <= W < 2 ^ (8 * Z.of_nat (word_bytes d)) ->
  current l a W = field W (place_of d a) (bits d).
Proof.
  assert (K : forall W s w, 0 <= s -> 0 <= w ->
            Z.land (Z.shiftr W s) (2 ^ w - 1) = field W s w).
  { intros W s w S Hw. rewrite Z.shiftr_div_pow2 by lia.
    replace (2 ^ w - 1) with (Z.ones w) by (rewrite Z.ones_equiv; lia).
    rewrite Z.land_ones by lia. reflexivity. }
  intros d l a W [E F] A R.
  destruct d; cbn in E, F; try discriminate; injection E as <-;
    unfold current, place_of, bits, word_bytes, bytes in *; cbn [Nat.max] in *;
    try (change (8 * Z.of_nat 1) with 8); try (change (8 * Z.of_nat 2) with 16).
  all: try (rewrite <- K by lia; f_equal; f_equal; cbn [shift]; lia).
  all: try (rewrite <- K by lia; f_equal; f_equal; cbn [shift]; rewrite bit1;
            destruct (even_mod4 a A) as [-> | ->]; reflexivity).
  all: rewrite A; unfold field; cbn [Z.of_nat Z.mul]; rewrite Z.pow_0_r, Z.div_1_r;
       symmetry; apply Z.mod_small; exact R.
Qed.

Lemma renewed_spec : forall d l g a W u, suits d l -> (a mod bytes d = 0)%nat ->
  0 <= W < 2 ^ (8 * Z.of_nat (word_bytes d)) -> 0 <= u < 2 ^ bits d ->
  0 <= renewed l g a W u < 2 ^ (8 * Z.of_nat (word_bytes d)) /\
  field (renewed l g a W u) (place_of d a) (bits d) = u /\
  forall b, (b mod bytes d = 0)%nat -> (b mod word_bytes d <> a mod word_bytes d)%nat ->
    field (renewed l g a W u) (place_of d b) (bits d) = field W (place_of d b) (bits d).
Proof.
  assert (G : forall W u w s, 0 <= s -> 0 <= w -> s + w <= 32 -> 0 <= u < 2 ^ w ->
            0 <= W < 2 ^ 32 ->
            0 <= mix W u s w < 2 ^ 32 /\ field (mix W u s w) s w = u /\
            forall s', 0 <= s' -> s' + w <= 32 -> s' + w <= s \/ s + w <= s' ->
              field (mix W u s w) s' w = field W s' w).
  { intros W u w s S Hw B U R. split; [apply mix_range; lia|].
    split; [apply mix_same; lia|]. intros. apply mix_other; lia. }
  intros d l g a W u [E F] A R U.
  destruct d; cbn in E, F; try discriminate; injection E as <-;
    unfold place_of, bits, word_bytes, bytes in *; cbn [Nat.max] in *;
    try (change (8 * Z.of_nat 1) with 8 in * ); try (change (8 * Z.of_nat 2) with 16 in * );
    try (change (8 * Z.of_nat 4) with 32 in * ).
  all: try match goal with |- context [renewed L8 ?g ?a ?W ?u] =>
    replace (renewed L8 g a W u) with (mix W u (8 * Z.of_nat (a mod 4)) 8)
      by (unfold mix, renewed, mask, shift; rewrite (Z.mul_comm (Z.of_nat (a mod 4))); reflexivity);
    pose proof (mod4_cases a) as CA;
    destruct (G W u 8 (8 * Z.of_nat (a mod 4)) ltac:(lia) ltac:(lia) ltac:(lia) U R) as (G1 & G2 & G3);
    split; [exact G1|]; split; [exact G2|];
    intros b B N; pose proof (mod4_cases b) as CB; apply G3; lia end.
  all: try match goal with |- context [renewed ?L ?g ?a ?W ?u] =>
    replace (renewed L g a W u) with (mix W u (8 * Z.of_nat (a mod 4)) 16)
      by (unfold mix, renewed, mask, shift; rewrite bit1;
          destruct (even_mod4 a A) as [-> | ->]; reflexivity);
    pose proof (even_mod4 a A) as CA;
    destruct (G W u 16 (8 * Z.of_nat (a mod 4)) ltac:(lia) ltac:(lia) ltac:(lia) U R) as (G1 & G2 & G3);
    split; [exact G1|]; split; [exact G2|];
    intros b B N; pose proof (even_mod4 b B) as CB; apply G3; lia end.
  all: cbn [renewed]; split; [exact U|]; split;
    [rewrite A; unfold field; cbn [Z.of_nat Z.mul]; rewrite Z.pow_0_r, Z.div_1_r;
     apply Z.mod_small; exact U|intros b B N; exfalso; lia].
Qed.

Lemma element_field : forall d m a,
  element d m a = field (nth (a / word_bytes d) m 0) (place_of d a) (bits d).
Proof. reflexivity. Qed.

Lemma words_nth : forall d m i, words d m ->
  0 <= nth i m 0 < 2 ^ (8 * Z.of_nat (word_bytes d)).
Proof.
  intros d m i W. destruct (Nat.lt_ge_cases i (length m)) as [L|L].
  - unfold words in W. rewrite Forall_forall in W. apply W. apply nth_In. exact L.
  - rewrite nth_overflow by lia. split; [lia|]. apply Z.pow_pos_nonneg; lia.
Qed.

Lemma nth_upd : forall A (l : list A) i j x e, (i < length l)%nat ->
  nth j (upd l i x) e = if Nat.eqb j i then x else nth j l e.
Proof.
  intros A l. induction l as [|y l IH]; intros i j x e L; cbn in L; [lia|].
  destruct i, j; cbn [upd nth Nat.eqb]; auto. apply IH. lia.
Qed.

Lemma Forall_upd : forall A (P : A -> Prop) l i x, Forall P l -> P x -> Forall P (upd l i x).
Proof.
  intros A P l. induction l as [|y l IH]; intros i x H X; cbn; [constructor|].
  inversion H; subst. destruct i; constructor; auto.
Qed.

(** Storing the new word changes the element addressed, and no other. *)
Lemma store_spec : forall d l g m a u, suits d l -> words d m -> placed d m a ->
  0 <= u < 2 ^ bits d ->
  let m' := upd m (word l a) (renewed l g a (nth (word l a) m 0) u) in
  words d m' /\ length m' = length m /\
  forall b, placed d m b -> element d m' b = if Nat.eqb a b then u else element d m b.
Proof.
  intros d l g m a u S W [A L] U m'.
  assert (R := words_nth d m (word l a) W).
  destruct (renewed_spec d l g a (nth (word l a) m 0) u S A R U) as (R1 & R2 & R3).
  assert (L' : (word l a < length m)%nat) by (rewrite (suits_word d l a S); exact L).
  split; [apply Forall_upd; assumption|]. split; [apply upd_length|].
  intros b [B LB]. rewrite !element_field. unfold m'. rewrite nth_upd by exact L'.
  assert (P : word_bytes d <> 0%nat) by (unfold word_bytes; lia).
  destruct (Nat.eqb_spec (b / word_bytes d) (word l a)) as [E|E].
  - destruct (Nat.eqb_spec a b) as [->|N]; [exact R2|].
    rewrite (R3 b B); [rewrite E; reflexivity|].
    intros M. apply N. rewrite (suits_word d l a S) in E.
    rewrite (Nat.div_mod a (word_bytes d) P), (Nat.div_mod b (word_bytes d) P). lia.
  - destruct (Nat.eqb_spec a b) as [->|N]; [|reflexivity].
    exfalso. apply E. symmetry. apply suits_word, S.
Qed.

Definition is_after (p : place) : bool := match p with After => true | _ => false end.

Fixpoint done_calls (cs : list call) (ps : list place) : list call :=
  match cs, ps with
  | c :: cs', p :: ps' => (if is_after p then [c] else []) ++ done_calls cs' ps'
  | _, _ => []
  end.

Lemma done_finish : forall cs ps i c p, nth_error cs i = Some c -> nth_error ps i = Some p ->
  is_after p = false -> Permutation (c :: done_calls cs ps) (done_calls cs (upd ps i After)).
Proof.
  induction cs as [|c0 cs IH]; intros ps i c p C P A; [destruct i; discriminate|].
  destruct ps as [|p0 ps]; [destruct i; discriminate|].
  destruct i as [|i]; cbn [nth_error] in C, P.
  - injection C as ->. injection P as ->. cbn [upd done_calls]. rewrite A. cbn. reflexivity.
  - cbn [upd done_calls]. specialize (IH ps i c p C P A).
    destruct (is_after p0); cbn [app]; [|exact IH].
    eapply perm_trans; [apply perm_swap|]. constructor. exact IH.
Qed.

Lemma done_stay : forall cs ps i p q, nth_error ps i = Some p ->
  is_after p = false -> is_after q = false -> done_calls cs (upd ps i q) = done_calls cs ps.
Proof.
  induction cs as [|c0 cs IH]; intros ps i p q P A Q; [reflexivity|].
  destruct ps as [|p0 ps]; [reflexivity|].
  destruct i as [|i]; cbn [nth_error] in P; cbn [upd done_calls].
  - injection P as ->. rewrite A, Q. reflexivity.
  - f_equal. eapply IH; eauto.
Qed.

Lemma done_all : forall cs ps, length ps = length cs -> Forall (fun p => p = After) ps ->
  done_calls cs ps = cs.
Proof.
  induction cs as [|c cs IH]; intros [|p ps] L H; cbn in L; try discriminate; [reflexivity|].
  inversion H; subst. cbn. f_equal. apply IH; [lia|assumption].
Qed.

Lemma done_none : forall cs, done_calls cs (map (fun _ => Before) cs) = [].
Proof. induction cs as [|c cs IH]; cbn; auto. Qed.

Lemma in_turn_snoc : forall f order c a x,
  in_turn f (order ++ [c]) a x =
  if Nat.eqb (addr c) a then f (in_turn f order a x) (value c) else in_turn f order a x.
Proof.
  intros f order c a x. unfold in_turn. rewrite filter_app. cbn [filter].
  destruct (Nat.eqb (addr c) a).
  - rewrite fold_left_app. reflexivity.
  - rewrite app_nil_r. reflexivity.
Qed.

Definition sequential (d : dtype) (f : Z -> Z -> Z) (cs : list call) (m : list Z) (s : state) : Prop :=
  length (places s) = length cs /\ length (memory s) = length m /\ words d (memory s) /\
  exists order, Permutation order (done_calls cs (places s)) /\
    forall a, placed d m a -> element d (memory s) a = in_turn f order a (element d m a).

Lemma step_sequential : forall d l g hw f cs m i s, suits d l ->
  Forall (fun c => placed d m (addr c)) cs ->
  (forall x c, In c cs -> 0 <= x < 2 ^ bits d -> 0 <= f x (value c) < 2 ^ bits d) ->
  sequential d f cs m s -> sequential d f cs m (step l g hw f cs i s).
Proof.
  intros d l g hw f cs m i s S P F (LP & LM & W & order & O & E).
  unfold step. destruct (nth_error cs i) as [c|] eqn:C;
    [|repeat split; auto; exists order; auto].
  destruct (nth_error (places s) i) as [p|] eqn:Q;
    [|repeat split; auto; exists order; auto].
  assert (I : In c cs) by (eapply nth_error_In; eauto).
  assert (PC : placed d m (addr c)) by (rewrite Forall_forall in P; apply P, I).
  assert (PM : placed d (memory s) (addr c)) by (destruct PC; split; [assumption|lia]).
  assert (CR : 0 <= current l (addr c) (nth (word l (addr c)) (memory s) 0) < 2 ^ bits d).
  { rewrite (current_spec d l (addr c) _ S (proj1 PC) (words_nth d _ _ W)).
    unfold field. apply Z.mod_pos_bound, Z.pow_pos_nonneg; unfold bits; lia. }
  assert (ST : is_after p = false ->
    sequential d f cs m
      {| memory := upd (memory s) (word l (addr c))
           (renewed l g (addr c) (nth (word l (addr c)) (memory s) 0)
              (f (current l (addr c) (nth (word l (addr c)) (memory s) 0)) (value c)));
         places := upd (places s) i After |}).
  { intros A.
    destruct (store_spec d l g (memory s) (addr c)
      (f (current l (addr c) (nth (word l (addr c)) (memory s) 0)) (value c)) S W PM (F _ _ I CR))
      as (W' & L' & E').
    split; [cbn; rewrite upd_length; exact LP|].
    split; [cbn [memory]; rewrite L'; exact LM|]. split; [exact W'|].
    exists (order ++ [c]). split.
    - cbn [places]. eapply perm_trans; [apply Permutation_app_comm|]. cbn [app].
      eapply perm_trans; [apply perm_skip, O|]. eapply done_finish; eauto.
    - intros a PA. cbn [memory].
      assert (PA' : placed d (memory s) a) by (destruct PA; split; [assumption|lia]).
      rewrite (E' a PA'). rewrite in_turn_snoc.
      destruct (Nat.eqb_spec (addr c) a) as [<-|N]; [|apply E, PA].
      f_equal. rewrite (current_spec d l (addr c) _ S (proj1 PC) (words_nth d _ _ W)).
      rewrite <- (E _ PA), element_field. rewrite (suits_word d l _ S). reflexivity. }
  assert (SK : is_after p = false -> forall old, sequential d f cs m
      {| memory := memory s; places := upd (places s) i (Loop old) |}).
  { intros A old. split; [cbn; rewrite upd_length; exact LP|]. split; [exact LM|].
    split; [exact W|]. exists order. split; [|exact E]. cbn [places].
    rewrite (done_stay cs (places s) i p (Loop old) Q A eq_refl). exact O. }
  destruct p as [|assumed|].
  - destruct hw; [apply ST; reflexivity|apply SK; reflexivity].
  - destruct (Z.eqb_spec (nth (word l (addr c)) (memory s) 0) assumed) as [<-|N];
      [apply ST; reflexivity|apply SK; reflexivity].
  - repeat split; auto. exists order; auto.
Qed.

Lemma start_sequential : forall d f cs m, words d m -> sequential d f cs m (start cs m).
Proof.
  intros d f cs m W. split; [apply map_length|]. split; [reflexivity|]. split; [exact W|].
  exists []. split; [cbn; rewrite done_none; constructor|]. intros; reflexivity.
Qed.

Lemma run_sequential : forall d l g hw f cs m sched s, suits d l ->
  Forall (fun c => placed d m (addr c)) cs ->
  (forall x c, In c cs -> 0 <= x < 2 ^ bits d -> 0 <= f x (value c) < 2 ^ bits d) ->
  sequential d f cs m s -> sequential d f cs m (run l g hw f cs sched s).
Proof.
  intros d l g hw f cs m sched. induction sched as [|i sched IH]; intros s S P F H; [exact H|].
  cbn. apply IH; auto. apply step_sequential; assumption.
Qed.

(** Whatever the schedule, the finished calls have taken effect one after the
    other, each on its own element. *)
Theorem atomic_linear : forall d l g hw f cs m sched, suits d l -> words d m ->
  Forall (fun c => placed d m (addr c)) cs ->
  (forall x c, In c cs -> 0 <= x < 2 ^ bits d -> 0 <= f x (value c) < 2 ^ bits d) ->
  all_returned (run l g hw f cs sched (start cs m)) ->
  exists order, Permutation order cs /\
    forall a, placed d m a ->
      element d (memory (run l g hw f cs sched (start cs m))) a = in_turn f order a (element d m a).
Proof.
  intros d l g hw f cs m sched S W P F A.
  destruct (run_sequential d l g hw f cs m sched _ S P F (start_sequential d f cs m W))
    as (LP & _ & _ & order & O & E).
  exists order. split; [|exact E].
  rewrite (done_all cs _ LP A) in O. exact O.
Qed.

(** ** Sums, greatest and least *)

Lemma filter_perm : forall A (p : A -> bool) l1 l2, Permutation l1 l2 ->
  Permutation (filter p l1) (filter p l2).
Proof.
  intros A p l1 l2 H. induction H; cbn.
  - constructor.
  - destruct (p x); [constructor|]; exact IHPermutation.
  - destruct (p x), (p y); try constructor; try apply Permutation_refl.
  - eapply perm_trans; eauto.
Qed.

Lemma sum_acc : forall (l : list call) x,
  fold_left (fun y c => y + value c) l x = x + fold_left (fun y c => y + value c) l 0.
Proof.
  induction l as [|c l IH]; intros x; cbn [fold_left]; [lia|].
  rewrite IH. rewrite (IH (0 + value c)). lia.
Qed.

Lemma sum_perm : forall l1 l2 : list call, Permutation l1 l2 ->
  fold_left (fun y c => y + value c) l1 0 = fold_left (fun y c => y + value c) l2 0.
Proof.
  intros l1 l2 H. induction H; cbn [fold_left]; auto.
  - rewrite sum_acc. rewrite (sum_acc l' (0 + value x)). lia.
  - rewrite sum_acc. rewrite (sum_acc l (0 + value x + value y)). lia.
  - congruence.
Qed.

Lemma sum_mod : forall w (l : list call) x, 0 <= w -> 0 <= x < 2 ^ w ->
  fold_left (fun y c => integer_change Add false w y (value c)) l x
  = (x + fold_left (fun y c => y + value c) l 0) mod 2 ^ w.
Proof.
  intros w l. induction l as [|c l IH]; intros x Hw X; cbn [fold_left].
  - rewrite Z.add_0_r. symmetry. apply Z.mod_small, X.
  - assert (P : 0 < 2 ^ w) by (apply Z.pow_pos_nonneg; lia).
    unfold integer_change at 2. rewrite IH; [|lia|apply Z.mod_pos_bound, P].
    rewrite (sum_acc l (0 + value c)).
    rewrite Zplus_mod_idemp_l. f_equal. lia.
Qed.

Lemma element_range : forall d m a, 0 <= element d m a < 2 ^ bits d.
Proof.
  intros d m a. unfold element. apply Z.mod_pos_bound. apply Z.pow_pos_nonneg; [lia|].
  unfold bits. lia.
Qed.

Theorem atomic_sum : forall d l g hw signed cs m sched, suits d l -> words d m ->
  Forall (fun c => placed d m (addr c)) cs ->
  all_returned (run l g hw (integer_change Add signed (bits d)) cs sched (start cs m)) ->
  forall a, placed d m a ->
    element d (memory (run l g hw (integer_change Add signed (bits d)) cs sched (start cs m))) a
    = (element d m a + total cs a) mod 2 ^ bits d.
Proof.
  intros d l g hw signed cs m sched S W P A a PA.
  destruct (atomic_linear d l g hw (integer_change Add signed (bits d)) cs m sched S W P) as (order & O & E).
  - intros x c I _. unfold integer_change. apply Z.mod_pos_bound.
    apply Z.pow_pos_nonneg; unfold bits; lia.
  - exact A.
  - rewrite (E a PA). unfold in_turn, total.
    change (integer_change Add signed (bits d)) with (integer_change Add false (bits d)).
    rewrite sum_mod; [|unfold bits; lia|apply element_range].
    rewrite (sum_perm _ _ (filter_perm _ _ _ _ O)). reflexivity.
Qed.

Lemma extreme_fold : forall c signed d (l : list call) x, c <> Add ->
  extreme c (key signed d) (x :: map value l)
    (fold_left (fun y e => integer_change c signed (bits d) y (value e)) l x).
Proof.
  intros c signed d l. induction l as [|e l IH]; intros x N; cbn [map fold_left].
  - split; [left; reflexivity|]. constructor; [destruct c; auto; lia|constructor].
  - specialize (IH (integer_change c signed (bits d) x (value e)) N). destruct IH as [I1 I2].
    assert (K : (if signed then as_signed (bits d) else fun b => b) = key signed d).
    { unfold key, as_signed. destruct signed; reflexivity. }
    inversion I2 as [|? ? I3 I4]; subst.
    revert I1 I2 I3 I4.
    generalize (fold_left (fun y e => integer_change c signed (bits d) y (value e)) l
                  (integer_change c signed (bits d) x (value e))).
    intros r I1 I2 I3 I4.
    unfold integer_change in I1, I3. rewrite K in I1, I3.
    split.
    + destruct I1 as [I1|I1]; [|right; right; exact I1].
      rewrite <- I1. destruct c; [congruence| |]; destruct (_ <? _); cbn; auto.
    + constructor; [|constructor; [|exact I4]].
      * destruct c; [auto| |];
          match type of I3 with context [?a <? ?b] => destruct (Z.ltb_spec a b) end; lia.
      * destruct c; [auto| |];
          match type of I3 with context [?a <? ?b] => destruct (Z.ltb_spec a b) end; lia.
Qed.

Lemma extreme_perm : forall c k l1 l2 r, Permutation l1 l2 -> extreme c k l1 r -> extreme c k l2 r.
Proof.
  intros c k l1 l2 r P [I F]. split; [eapply Permutation_in; eauto|].
  rewrite Forall_forall in *. intros x X. apply F. eapply Permutation_in; [|exact X].
  apply Permutation_sym, P.
Qed.

Theorem atomic_extreme : forall c signed d l g hw cs m sched, suits d l -> words d m ->
  c <> Add ->
  Forall (fun e => placed d m (addr e) /\ 0 <= value e < 2 ^ bits d) cs ->
  all_returned (run l g hw (integer_change c signed (bits d)) cs sched (start cs m)) ->
  forall a, placed d m a ->
    extreme c (key signed d) (candidates cs a (element d m a))
      (element d (memory (run l g hw (integer_change c signed (bits d)) cs sched (start cs m))) a).
Proof.
  intros c signed d l g hw cs m sched S W N P A a PA.
  destruct (atomic_linear d l g hw (integer_change c signed (bits d)) cs m sched S W) as (order & O & E).
  - eapply Forall_impl; [|exact P]. intros e [H _]. exact H.
  - intros x e I X. rewrite Forall_forall in P. destruct (P e I) as [_ V].
    unfold integer_change. destruct c; [congruence| |]; destruct (_ <? _); assumption.
  - exact A.
  - rewrite (E a PA). unfold in_turn, candidates.
    eapply extreme_perm; [|apply extreme_fold; exact N].
    constructor. apply Permutation_map, filter_perm, O.
Qed.

(** ** Every thread returns *)

Fixpoint moves (i : nat) (sched : list nat) : nat :=
  match sched with
  | [] => 0
  | j :: r => (if Nat.eqb i j then 1 else 0) + moves i r
  end%nat.

Definition returned (ps : list place) : nat := length (filter is_after ps).

Lemma returned_upd_after : forall ps j p, nth_error ps j = Some p -> is_after p = false ->
  returned (upd ps j After) = S (returned ps).
Proof.
  induction ps as [|q ps IH]; intros j p N A; [destruct j; discriminate|].
  destruct j as [|j]; cbn [nth_error] in N; unfold returned in *; cbn [upd filter].
  - injection N as ->. rewrite A. reflexivity.
  - specialize (IH j p N A). destruct (is_after q); cbn [length]; lia.
Qed.

Lemma returned_upd_loop : forall ps j p q, nth_error ps j = Some p -> is_after p = false ->
  is_after q = false -> returned (upd ps j q) = returned ps.
Proof.
  induction ps as [|r ps IH]; intros j p q N A Q; [reflexivity|].
  destruct j as [|j]; cbn [nth_error] in N; unfold returned in *; cbn [upd filter].
  - injection N as ->. rewrite A, Q. reflexivity.
  - specialize (IH j p q N A Q). destruct (is_after r); cbn [length]; lia.
Qed.

Lemma returned_lt : forall ps i p, nth_error ps i = Some p -> is_after p = false ->
  (returned ps < length ps)%nat.
Proof.
  induction ps as [|q ps IH]; intros i p N A; [destruct i; discriminate|].
  assert (LE : forall l : list place, (returned l <= length l)%nat).
  { induction l as [|x l IHl]; unfold returned in *; cbn; [lia|]. destruct (is_after x); cbn; lia. }
  destruct i as [|i]; cbn [nth_error] in N; unfold returned in *; cbn [filter length].
  - injection N as ->. rewrite A. specialize (LE ps). lia.
  - specialize (IH i p N A). destruct (is_after q); cbn [length]; lia.
Qed.

(** [n] moves of thread [i] so far: it has returned, or has failed at most as
    often as other threads have returned. *)
Definition bounded (l : lane) (cs : list call) (i n : nat) (s : state) : Prop :=
  length (places s) = length cs /\
  match nth_error cs i, nth_error (places s) i with
  | Some c, Some Before => n = 0%nat
  | Some c, Some (Loop assumed) =>
      exists k, (n <= S k)%nat /\ (k <= returned (places s))%nat /\
        (nth (word l (addr c)) (memory s) 0 <> assumed -> (k < returned (places s))%nat)
  | _, _ => True
  end.

Lemma step_bounded : forall l g hw f cs i j n s, bounded l cs i n s ->
  bounded l cs i ((if Nat.eqb i j then 1 else 0) + n) (step l g hw f cs j s).
Proof.
  intros l g hw f cs i j n s [L B]. unfold step.
  destruct (nth_error cs j) as [c|] eqn:C.
  2:{ destruct (Nat.eqb_spec i j) as [->|N]; [|split; assumption].
      split; [exact L|]. rewrite C. exact I. }
  destruct (nth_error (places s) j) as [p|] eqn:P.
  2:{ destruct (Nat.eqb_spec i j) as [->|N]; [|split; assumption].
      split; [exact L|]. rewrite C, P. exact I. }
  assert (JL : (j < length (places s))%nat) by (apply nth_error_Some; rewrite P; discriminate).
  destruct (Nat.eqb_spec i j) as [->|N].
  - rewrite C, P in B. destruct p as [|assumed|].
    + subst n. destruct hw; (split; [cbn; rewrite upd_length; exact L|]); cbn [places memory];
        rewrite C, nth_error_upd_eq by exact JL; try exact I.
      exists 0%nat. repeat split; lia.
    + destruct (Z.eqb_spec (nth (word l (addr c)) (memory s) 0) assumed) as [E|E];
        (split; [cbn; rewrite upd_length; exact L|]); cbn [places memory];
        rewrite C, nth_error_upd_eq by exact JL; try exact I.
      destruct B as (k & K1 & K2 & K3). specialize (K3 E).
      rewrite (returned_upd_loop _ _ _ (Loop (nth (word l (addr c)) (memory s) 0)) P eq_refl eq_refl).
      exists (S k). repeat split; lia.
    + split; [exact L|]. rewrite C, P. exact I.
  - cbn [Nat.add].
    assert (SK : forall old, is_after p = false -> bounded l cs i n
      {| memory := memory s; places := upd (places s) j (Loop old) |}).
    { intros old A. split; [cbn; rewrite upd_length; exact L|]. cbn [places memory].
      rewrite nth_error_upd_neq by lia.
      rewrite (returned_upd_loop _ _ _ (Loop old) P A eq_refl). exact B. }
    assert (ST : forall m', is_after p = false -> bounded l cs i n
      {| memory := m'; places := upd (places s) j After |}).
    { intros m' A. split; [cbn; rewrite upd_length; exact L|]. cbn [places memory].
      rewrite nth_error_upd_neq by lia.
      rewrite (returned_upd_after _ _ _ P A).
      destruct (nth_error cs i) as [ci|]; [|exact I].
      destruct (nth_error (places s) i) as [[|assumed|]|]; auto.
      destruct B as (k & K1 & K2 & K3). exists k. repeat split; lia. }
    destruct p as [|assumed|].
    + destruct hw; [apply ST; reflexivity|apply SK; reflexivity].
    + destruct (_ =? _); [apply ST; reflexivity|apply SK; reflexivity].
    + split; assumption.
Qed.

Lemma run_bounded : forall l g hw f cs i sched n s, bounded l cs i n s ->
  bounded l cs i (moves i sched + n) (run l g hw f cs sched s).
Proof.
  intros l g hw f cs i sched. induction sched as [|j sched IH]; intros n s B; [exact B|].
  cbn [moves run fold_left]. apply (step_bounded l g hw f cs i j) in B.
  apply IH in B. unfold run in *.
  replace ((if Nat.eqb i j then 1 else 0) + moves i sched + n)%nat
    with (moves i sched + ((if Nat.eqb i j then 1 else 0) + n))%nat by lia.
  exact B.
Qed.

Theorem atomic_returns : forall l g hw f cs m sched i, (i < length cs)%nat ->
  (length cs < moves i sched)%nat ->
  nth_error (places (run l g hw f cs sched (start cs m))) i = Some After.
Proof.
  intros l g hw f cs m sched i I M.
  assert (B : bounded l cs i 0 (start cs m)).
  { split; [apply map_length|]. cbn [start places memory].
    destruct (nth_error cs i) as [c|] eqn:C; [|exact Logic.I].
    rewrite nth_error_map, C. reflexivity. }
  apply (run_bounded l g hw f cs i sched) in B. destruct B as [L B].
  destruct (nth_error cs i) as [c|] eqn:C; [|apply nth_error_None in C; lia].
  destruct (nth_error (places (run l g hw f cs sched (start cs m))) i) as [p|] eqn:P;
    [|apply nth_error_None in P; lia].
  destruct p as [|assumed|]; [lia| |reflexivity].
  exfalso. destruct B as (k & K1 & K2 & K3).
  pose proof (returned_lt _ _ _ P eq_refl). lia.
Qed.

(** ** The eight bit floats *)

(** A call on an odd address replaces the byte before it, and leaves what
    happened to be on the stack in its own. *)
Lemma eight_bit_wrong : forall d g f, eight_bit_float d = true -> 0 <= g < 256 -> f 0 56 = 56 ->
  let s := run L8f g false f [{| addr := 1; value := 56 |}] [0%nat; 0%nat]
               (start [{| addr := 1; value := 56 |}] [0]) in
  all_returned s /\ element d (memory s) 0 = 56 /\ element d (memory s) 1 = g.
Proof.
  intros d g f D G F s.
  assert (M : memory s = [56 + 256 * g]).
  { unfold s, run, start. cbn [fold_left step nth_error map addr value places memory upd word
      nth Nat.div Nat.divmod fst current Z.shiftr Z.land Z.eqb].
    change (1 mod 4)%nat with 1%nat.
    change (Z.land (Z.shiftr 0 (Z.of_nat 1 * 8)) 255) with 0.
    change (Nat.testbit 1 1) with false. cbn [Z.eqb memory upd renewed shift].
    change (Nat.testbit 1 1) with false. change (Z.land 0 _) with 0.
    rewrite Z.lor_0_l. cbn [places nth_error]. rewrite F. rewrite Z.shiftl_0_r. reflexivity. }
  split; [|].
  - unfold s, all_returned. cbn. repeat constructor.
  - rewrite M. unfold element.
    assert (B : bits d = 8) by (destruct d; try discriminate D; reflexivity).
    assert (W : word_bytes d = 4%nat) by (destruct d; try discriminate D; reflexivity).
    rewrite B, W. change (0 / 4)%nat with 0%nat. change (1 / 4)%nat with 0%nat.
    change (0 mod 4)%nat with 0%nat. change (1 mod 4)%nat with 1%nat.
    change (8 * Z.of_nat 0) with 0. change (8 * Z.of_nat 1) with 8. cbn [nth].
    change (2 ^ 0) with 1. change (2 ^ 8) with 256.
    replace (56 + 256 * g) with (56 + g * 256) by lia. split.
    + rewrite Z.div_1_r, Z_mod_plus_full. reflexivity.
    + rewrite Z_div_plus_full by lia. change (56 / 256) with 0. rewrite Z.add_0_l. apply Z.mod_small. lia.
Qed.
