(** The rules of the operations with a scalar and of the binary operations. *)
From Coq Require Import Reals Lra Lia ZArith Bool List.
From Verif Require Import Base RuleModel RuleSpec RuleProofs RuleProofs2.
Open Scope R_scope.

(** ** The power function *)
Lemma is_int_spec : forall c, is_int c = true <-> exists n, c = IZR n.
Proof.
  intro c. unfold is_int, Reqb. destruct (Req_EM_T (Rfloor c) c) as [E|E]; split; auto.
  - intros _. destruct (floor_int c) as [n En]. exists n. congruence.
  - discriminate.
  - intros [n ->]. now rewrite floor_IZR in E.
Qed.
Lemma int_part_IZR : forall n, Int_part (IZR n) = n.
Proof. intro n. apply eq_IZR. apply floor_IZR. Qed.

Lemma pow_pos : forall x c, 0 < x -> pow_opt x c = Fl (Rpower x c).
Proof.
  intros x c Hx. unfold pow_opt.
  destruct (Req_dec c 0) as [->|Hc]; [now rewrite Reqb_t, Rpower_O|]. rewrite (Reqb_f c 0) by auto.
  rewrite (Reqb_f x 0) by lra.
  destruct (Req_dec x 1) as [->|H1]; [rewrite Reqb_t; unfold Rpower; now rewrite ln_1, Rmult_0_r, exp_0|].
  rewrite (Reqb_f x 1) by auto.
  destruct (Req_dec c 1) as [->|Hc1]; [now rewrite Reqb_t, Rpower_1|]. rewrite (Reqb_f c 1) by auto.
  destruct (is_int c) eqn:Ei; [|cbn [andb]; now rewrite Rgtb_f by lra].
  apply is_int_spec in Ei. destruct Ei as [n ->].
  destruct (Rle_lt_dec 0 (IZR n)) as [Hn|Hn].
  - rewrite Rgeb_t by auto. cbn [andb]. destruct (Rgtb 32 (IZR n)).
    + rewrite int_part_IZR, <- Rpower_pow by auto. f_equal. f_equal. apply le_IZR in Hn.
      now rewrite INR_IZR_INZ, Z2Nat.id.
    + rewrite (Rgtb_f 0) by lra. cbn [andb]. now rewrite Rgtb_f by lra.
  - rewrite Rgeb_f by auto. cbn [andb]. rewrite (Rgtb_t 0) by lra. cbn [andb].
    destruct (Rgtb (IZR n) (-32)); [|now rewrite Rgtb_f by lra].
    rewrite <- opp_IZR, int_part_IZR, <- Rpower_pow by auto. f_equal. apply lt_IZR in Hn.
    rewrite INR_IZR_INZ, Z2Nat.id by lia. rewrite opp_IZR, Rpower_Ropp. unfold Rdiv.
    rewrite Rmult_1_l, Rinv_inv. reflexivity.
Qed.

Lemma pow_nz : forall x n, x <> 0 -> (-32 < n < 32)%Z -> pow_opt x (IZR n) = Fl (powerRZ x n).
Proof.
  intros x n Hx Hn. unfold pow_opt.
  destruct (Z.eq_dec n 0) as [->|H0]; [now rewrite Reqb_t|].
  rewrite (Reqb_f (IZR n) 0) by (intro E; apply eq_IZR in E; auto). rewrite (Reqb_f x 0) by auto.
  destruct (Req_dec x 1) as [->|H1]; [now rewrite Reqb_t, powerRZ_R1|].
  rewrite (Reqb_f x 1) by auto.
  destruct (Z.eq_dec n 1) as [->|Hn1]; [rewrite Reqb_t; f_equal; simpl; ring|].
  rewrite (Reqb_f (IZR n) 1) by (intro E; apply eq_IZR in E; auto).
  assert (Ei : is_int (IZR n) = true) by (apply is_int_spec; eauto). rewrite Ei. cbn [andb].
  destruct (Z_le_dec 0 n) as [Hz|Hz].
  - rewrite Rgeb_t by (now apply IZR_le). cbn [andb]. rewrite Rgtb_t by (apply IZR_lt; lia).
    rewrite int_part_IZR. f_equal. destruct n; simpl; auto; try lia.
  - rewrite Rgeb_f by (apply IZR_lt; lia). cbn [andb]. rewrite (Rgtb_t 0) by (apply IZR_lt; lia).
    cbn [andb]. rewrite Rgtb_t by (apply IZR_lt; lia). rewrite <- opp_IZR, int_part_IZR. f_equal.
    destruct n; try lia. simpl. unfold Rdiv. ring.
Qed.

Lemma pow_neg_nan : forall x c, x < 0 -> (forall n, (-32 < n < 32)%Z -> c <> IZR n) -> pow_opt x c = NaN.
Proof.
  intros x c Hx Hn. unfold pow_opt.
  rewrite (Reqb_f c 0) by (apply Hn; lia). rewrite (Reqb_f x 0), (Reqb_f x 1) by lra.
  rewrite (Reqb_f c 1) by (apply Hn; lia).
  destruct (is_int c) eqn:Ei; [|cbn [andb]; now rewrite Rgtb_t].
  apply is_int_spec in Ei. destruct Ei as [n ->]. cbn [andb].
  assert (Hr : (32 <= n \/ n <= -32)%Z).
  { destruct (Z_lt_dec n 32); [|lia]. destruct (Z_lt_dec (-32) n); [|lia].
    elim (Hn n); [lia|reflexivity]. }
  destruct Hr as [Hr|Hr].
  - rewrite Rgeb_t by (apply IZR_le; lia). cbn [andb]. rewrite Rgtb_f by (apply IZR_le; lia).
    rewrite (Rgtb_f 0) by (apply IZR_le; lia). cbn [andb]. now rewrite Rgtb_t.
  - rewrite Rgeb_f by (apply IZR_lt; lia). cbn [andb]. rewrite (Rgtb_t 0) by (apply IZR_lt; lia).
    cbn [andb]. rewrite Rgtb_f by (apply IZR_le; lia). now rewrite Rgtb_t.
Qed.

Lemma Rpower_D : forall c x, 0 < x -> D (fun y => Rpower y c) x (c * Rpower x (c - 1)).
Proof. intros c x Hx. now apply derivable_pt_lim_power. Qed.

Lemma powerRZ_D : forall n x, x <> 0 -> D (fun y => powerRZ y n) x (IZR n * powerRZ x (n - 1)).
Proof.
  intros n x Hx.
  assert (S1 : powerRZ x n = powerRZ x (n - 1) * x).
  { replace n with (n - 1 + 1)%Z at 1 by lia. rewrite powerRZ_add by auto. now rewrite powerRZ_1. }
  destruct n as [|p|p].
  - simpl powerRZ at 1. rewrite Rmult_0_l. apply D_const.
  - eapply D_ext; [apply (derivable_pt_lim_pow x (Pos.to_nat p))|reflexivity|].
    rewrite INR_IZR_INZ, positive_nat_Z. f_equal.
    change (powerRZ x (Z.pos p)) with (x ^ Pos.to_nat p) in S1.
    destruct (Pos.to_nat p) eqn:Ep; [lia|]. simpl pred.
    apply (Rmult_eq_reg_r x); [|auto]. rewrite <- S1. simpl. ring.
  - set (m := Pos.to_nat p) in *.
    eapply D_ext; [apply (D_div (fun _ => 1) (fun y => y ^ m)); [apply D_const|apply derivable_pt_lim_pow|now apply pow_nonzero]| |].
    + intro y. simpl. fold m. unfold Rdiv. ring.
    + cbv beta. assert (Hm : x ^ m <> 0) by now apply pow_nonzero.
      apply (Rmult_eq_reg_r x); [|auto]. rewrite (Rmult_assoc (IZR (Z.neg p))), <- S1. change (powerRZ x (Z.neg p)) with (/ x ^ m).
      replace (IZR (Z.neg p)) with (- INR m).
      2:{ unfold m. rewrite INR_IZR_INZ, positive_nat_Z, <- opp_IZR. reflexivity. }
      destruct m as [|k] eqn:Ek; [pose proof (Pos2Nat.is_pos p); subst m; lia|]. simpl pred.
      assert (x ^ k <> 0) by now apply pow_nonzero.
      change (x ^ S k) with (x * x ^ k). unfold Rsqr. field. auto.
Qed.

Lemma classic_int : forall c, (exists n, (-32 < n < 32)%Z /\ c = IZR n) \/
  (forall n, (-32 < n < 32)%Z -> c <> IZR n).
Proof.
  intro c. destruct (is_int c) eqn:E.
  - apply is_int_spec in E. destruct E as [n ->].
    destruct (Z_lt_dec (-32) n); [destruct (Z_lt_dec n 32)|].
    + left. exists n. split; [lia|reflexivity].
    + right. intros m Hm E. apply eq_IZR in E. lia.
    + right. intros m Hm E. apply eq_IZR in E. lia.
  - right. intros n _ ->. assert (is_int (IZR n) = true) by (apply is_int_spec; eauto). congruence.
Qed.

(** Where the power function is differentiable in the base, its derivative is
    [c * x^(c-1)] with the power computed the same way -- but for two cases. *)
Lemma pow_base : forall c x d, has_derivative (fun y => pow_opt y c) x d ->
  ~ (x = 0 /\ c = 0) -> ~ (x < 0 /\ c = -31) ->
  exists p, pow_opt x (c - 1) = Fl p /\ d = c * p.
Proof.
  intros c x d H N0 N31. destruct (Rtotal_order x 0) as [Hx|[->|Hx]].
  - destruct (classic_int c) as [(n & Hn & ->)|Hn].
    + exists (powerRZ x (n - 1)). split.
      * rewrite <- minus_IZR. apply pow_nz; [lra|].
        assert (n <> -31)%Z by (intros ->; apply N31; split; [lra|reflexivity]). lia.
      * apply (smooth_loc _ (fun y => powerRZ y n) x d (IZR n * powerRZ x (n - 1)) (- x)) in H; auto; [lra| |].
        -- intros y Hy. apply Rabs_def2 in Hy. apply pow_nz; [lra|lia].
        -- apply powerRZ_D. lra.
    + destruct (hd_left _ _ _ H) as (e & He & Hl). elim (Hl 0); [lra|]. apply pow_neg_nan; [lra|auto].
  - destruct (classic_int c) as [(n & Hn & ->)|Hn].
    2:{ destruct (hd_left _ _ _ H) as (e & He & Hl). elim (Hl e); [lra|]. apply pow_neg_nan; [lra|auto]. }
    destruct (Z_le_dec n 0) as [Hz|Hz].
    { destruct (Z.eq_dec n 0) as [->|Hz0]; [elim N0; auto|].
      destruct (hd_left _ _ _ H) as (e & He & Hl). elim (Hl 0); [lra|].
      unfold pow_opt. rewrite Rminus_0_r, (Reqb_f (IZR n) 0), Reqb_t by (intro E; apply eq_IZR in E; auto).
      rewrite Rgtb_f by (apply IZR_le; lia). reflexivity. }
    set (m := Z.to_nat n).
    assert (Hf : forall y, pow_opt y (IZR n) = Fl (y ^ m)).
    { intro y. destruct (Req_dec y 0) as [->|Hy].
      - unfold pow_opt. rewrite (Reqb_f (IZR n) 0), Reqb_t, Rgtb_t by
          (try apply IZR_lt; try lia; intro E; apply eq_IZR in E; lia).
        f_equal. symmetry. apply pow_i. unfold m. lia.
      - rewrite pow_nz by (auto; lia). f_equal. unfold m. destruct n; try lia. reflexivity. }
    apply (smooth _ (fun y => y ^ m) 0 d _ Hf (derivable_pt_lim_pow 0 m)) in H. subst d.
    exists (0 ^ pred m). split.
    + destruct (Z.eq_dec n 1) as [->|Hn1].
      * unfold pow_opt. now rewrite Rminus_eq_0, Reqb_t.
      * rewrite <- minus_IZR. unfold pow_opt.
        rewrite (Reqb_f (IZR (n - 1)) 0), Reqb_t, Rgtb_t by
          (try apply IZR_lt; try lia; intro E; apply eq_IZR in E; lia).
        f_equal. symmetry. apply pow_i. unfold m. lia.
    + f_equal. unfold m. rewrite INR_IZR_INZ, Z2Nat.id by lia. reflexivity.
  - exists (Rpower x (c - 1)). split; [now apply pow_pos|].
    apply (smooth_loc _ (fun y => Rpower y c) x d (c * Rpower x (c - 1)) x) in H; auto.
    + intros y Hy. apply Rabs_def2 in Hy. apply pow_pos. lra.
    + now apply Rpower_D.
Qed.
