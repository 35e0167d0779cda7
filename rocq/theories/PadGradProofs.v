(** The gradient rule of padding against padding itself. *)
From Coq Require Import List Arith ZArith Bool Lia Reals Lra Permutation.
From Verif Require Import Base IndexSpec LayoutModel ViewSpec LayoutProofs LayoutProofs2 BcastProofs KernelModel TensorModel TensorSpec KernelProofs TensorProofs ElementwiseProofs.
From Verif Require Import DenSpec DenProofs ReduceModel ReduceSpec ReduceProofs ReduceProofs2 NnProofs NormProofs MoveModel MoveProofs MoveProofs2 MoveProofs3 CountProofs.
From Verif Require Import ConvModel ConvReal MoveGradProofs PadGradModel PadGradSpec.
Import ListNotations.
Open Scope nat_scope.

(* ---------- one slice ---------- *)
Section Slices.
Variables (A : Type) (z : A).

Lemma slice1_ok : forall (t : tensor A) pre d l lo hi, good t -> tshape t = pre ++ d :: l -> lo < hi <= d ->
  exists r, slice1 z (length pre) lo hi t = Ok r /\ good r /\ tshape r = pre ++ (hi - lo) :: l /\
    (forall i a j, valid pre i -> a < hi - lo -> valid l j -> elem r (i ++ a :: j) = elem t (i ++ (lo + a) :: j)) /\
    (usable t -> lo = 0 -> usable r) /\
    (usable t -> all_pos pre -> all_pos l -> pre <> [] -> hi - lo < d -> usable r).
Proof.
  intros t pre d l lo hi G St H.
  assert (AX : axis_of (length (pre ++ d :: l)) (Z.of_nat (length pre)) = length pre).
  { unfold axis_of. destruct (Z.ltb_spec (Z.of_nat (length pre)) 0); lia. }
  set (o := VSlice (Z.of_nat (length pre)) (Z.of_nat lo) (Some (Z.of_nat hi)) 1).
  assert (RG : regular o (tshape t)) by (cbn; lia).
  destruct (t_view_total A z o t (pre ++ (hi - lo) :: l) G RG) as [r [E Sr]].
  { rewrite St. cbn [shape_rel o]. rewrite AX. split; [unfold axis_ok; rewrite app_length; cbn [length]; lia|].
    split; [rewrite !app_length; reflexivity|]. split.
    - intros k Hk. destruct (Nat.lt_ge_cases k (length pre)) as [L|L].
      + now rewrite !nth_error_app1.
      + rewrite !nth_error_app2 by lia. destruct (k - length pre) eqn:Ek; [lia|]. reflexivity.
    - exists d, (hi - lo). rewrite !nth_error_app2, !Nat.sub_diag by lia. cbn [nth_error]. split; auto. split; auto. split; [lia|].
      change (1 >? 0)%Z with true. unfold py_count, py_start, py_stop. change (1 >? 0)%Z with true.
      replace (Z.of_nat lo <? 0)%Z with false by (symmetry; apply Z.ltb_ge; lia).
      replace (Z.of_nat hi <? 0)%Z with false by (symmetry; apply Z.ltb_ge; lia).
      rewrite !Z.min_l by lia. split; [lia|]. intros y Hy. split; lia. }
  destruct (t_view_spec A z o t r G RG E) as [Gr [_ Ht]].
  exists r. split; [exact E|]. split; [exact Gr|]. split; [exact Sr|]. split.
  - intros i a j Vi Ha Vj. rewrite Sr in Ht.
    destruct (Ht (i ++ a :: j)) as [k [IR [Vk Ek]]].
    { apply valid_app; [now apply valid_length|]. cbn [valid]. auto. }
    rewrite Ek. f_equal. rewrite St in IR. cbn [index_rel o] in IR. rewrite AX in IR. destruct IR as [Lk [Hk [d0 [x0 [y0 [Q1 [Q2 [Q3 Q4]]]]]]]].
    rewrite (nth_error_app2 pre) in Q1 by lia. rewrite Nat.sub_diag in Q1. inversion Q1; subst d0. clear Q1.
    pose proof (valid_length _ _ Vi) as Li. rewrite <- Li in Q2. rewrite nth_error_app2 in Q2 by lia. rewrite Nat.sub_diag in Q2. inversion Q2; subst x0. clear Q2.
    change (1 >? 0)%Z with true in Q4. cbv iota in Q4. unfold py_start in Q4.
    replace (Z.of_nat lo <? 0)%Z with false in Q4 by (symmetry; apply Z.ltb_ge; lia). rewrite Z.min_l in Q4 by lia.
    apply list_ext. intros q. destruct (Nat.eq_dec q (length pre)) as [->|NE].
    + rewrite Q3, <- Li, nth_error_app2, Nat.sub_diag by lia. cbn. f_equal. lia.
    + rewrite Hk by exact NE. destruct (Nat.lt_ge_cases q (length pre)) as [L|L].
      * now rewrite !nth_error_app1 by lia.
      * rewrite !nth_error_app2 by lia. destruct (q - length i) eqn:Eq; [lia|]. reflexivity.
  - destruct (t_contiguous_spec A z t G) as [c [Ec [Gc [Sc [Cc _]]]]].
    rewrite (t_view_unfold A z o t c G Ec) in E. cbn [o apply_view] in E. unfold slice in E. change (lshape (tlay c)) with (tshape c) in E. rewrite Sc, St in E.
    replace (Z.of_nat (length pre) <? 0)%Z with false in E by (symmetry; apply Z.ltb_ge; lia).
    unfold as_usize in E. replace (Z.of_nat (length pre) <? 0)%Z with false in E by (symmetry; apply Z.ltb_ge; lia).
    rewrite Nat2Z.id in E. rewrite app_length in E. cbn [length] in E. replace (length pre + S (length l) <=? length pre) with false in E by (symmetry; apply Nat.leb_gt; lia).
    change (1 =? 0)%Z with false in E. cbv iota in E. unfold idx_or_panic in E. rewrite nth_error_app2, Nat.sub_diag in E by lia. cbn [nth_error bind] in E.
    destruct (slice_bounds (Z.of_nat d) (Z.of_nat lo) (Some (Z.of_nat hi)) 1) as [st0 m0] eqn:EB.
    assert (Est : st0 = Z.of_nat lo).
    { unfold slice_bounds, zclamp in EB. injection EB as E1 _. rewrite <- E1. destruct (Z.ltb_spec (Z.of_nat lo) 0); lia. }
    subst st0. destruct (m0 <=? 0)%Z; [discriminate|].
    destruct (nth_error (lstrides (tlay c)) (length pre)) as [st|] eqn:Est; [|discriminate]. cbn [bind] in E. injection E as <-.
    cbn [tshape tlay lshape] in Sr. split.
    + intros U ->. left. cbn [tlay loffset]. rewrite (usable_contig A z t c G U Ec). lia.
    + intros U Pp Pl NE Hlt. right. cbn [tlay]. apply not_true_is_false. intros CC.
      pose proof (proj1 (is_contiguous_iff _ (proj1 Gc)) Cc) as Q1. pose proof (proj1 (is_contiguous_iff _ (proj1 Gr)) CC) as Q2.
      cbn [lstrides lshape tlay] in Q1, Q2. change (Z.to_nat (Z.abs 1)) with 1 in Q2. rewrite Nat.mul_1_r in Q2. rewrite Sr in Q2.
      change (lshape (tlay c)) with (tshape c) in Q1. rewrite Sc, St in Q1. rewrite Q1 in Q2.
      destruct (exists_last NE) as (pre' & p & ->). rewrite <- !app_assoc in Q2. cbn [app] in Q2.
      rewrite Q1, <- app_assoc in Est. cbn [app] in Est.
      apply (f_equal (fun l => nth_error l (length pre'))) in Q2. rewrite nth_error_upd_neq in Q2 by (rewrite app_length; cbn; lia).
      assert (HS : forall q m, nth_error (compute_strides (q ++ p :: m :: l)) (length q) = Some (m * nelem l)).
      { clear. induction q as [|x q IH]; intros m; cbn [app length]; rewrite compute_strides_cons; [reflexivity|]. cbn [nth_error]. apply IH. }
      rewrite !HS in Q2. injection Q2 as Q2. assert (0 < nelem l) by (exact (nelem_pos_valid l _ (zeros_valid l Pl))). nia.
Qed.
End Slices.

(* ---------- several slices ---------- *)
Lemma padded_cons : forall n s b a p, padded_shape (n :: s) ((b, a) :: p) = (n + b + a) :: padded_shape s p.
Proof. reflexivity. Qed.
Lemma padded_pos : forall s p, all_pos s -> all_pos (padded_shape s p).
Proof.
  intros s p P. revert p. induction P as [|n s Hn P IH]; intros [|[b a] p]; try (now constructor). rewrite padded_cons. constructor; [lia|]. apply IH.
Qed.
Lemma shifted_valid : forall p s j, length p = length s -> valid s j -> valid (padded_shape s p) (shifted p j).
Proof.
  induction p as [|[b a] p IH]; intros [|n s] [|x j] L V; try discriminate; try (now destruct V).
  rewrite padded_cons. cbn [shifted combine map fst snd valid]. destruct V as [V1 V2]. split; [lia|]. apply IH; auto.
Qed.
Section Slices2.
Variables (A : Type) (z : A).
Lemma slice_center_ok : forall padding s pre tl (t : tensor A), good t -> tshape t = pre ++ padded_shape s padding ++ tl -> length padding = length s -> all_pos s ->
  exists r, slice_center z (length pre) padding s t = Ok r /\ good r /\ tshape r = pre ++ s ++ tl /\
    (forall i j k, valid pre i -> valid s j -> valid tl k -> elem r (i ++ j ++ k) = elem t (i ++ shifted padding j ++ k)) /\
    (usable t -> all_pos pre -> all_pos tl -> (pre <> [] \/ match padding with (b, _) :: _ => b = 0 | [] => True end) -> usable r).
Proof.
  induction padding as [|[b a] padding IH]; intros [|n s] pre tl t G St L P; try discriminate; cbn [slice_center].
  - exists t. split; auto. split; auto. split; auto. split; auto. intros i [|] k _ V _; [reflexivity|destruct V].
  - rewrite padded_cons in St. cbn [app] in St. inversion P as [|? ? Pn P']; subst.
    destruct (slice1_ok A z t pre _ _ b (b + n) G St ltac:(lia)) as (t1 & E1 & G1 & S1 & H1 & U1 & U2). rewrite E1. cbn [bind]. replace (b + n - b) with n in * by lia.
    destruct (IH s (pre ++ [n]) tl t1 G1) as (r & Er & Gr & Sr & Hr & Ur); auto.
    { rewrite S1, <- app_assoc. reflexivity. }
    rewrite app_length in Er. cbn [length] in Er. rewrite Nat.add_1_r in Er. exists r. split; [exact Er|]. split; auto.
    split; [rewrite Sr, <- app_assoc; reflexivity|]. split.
    + intros i [|x j] k Vi Vj Vk; [destruct Vj|]. destruct Vj as [Vx Vj]. cbn [app]. change (i ++ x :: j ++ k) with (i ++ [x] ++ j ++ k). rewrite app_assoc. rewrite Hr; auto.
      * rewrite <- app_assoc. cbn [app shifted combine map fst snd]. fold (shifted padding j). rewrite H1; auto. assert (VS := shifted_valid padding s j ltac:(now injection L) Vj). apply valid_app; [now apply valid_length|auto].
      * apply valid_app; [now apply valid_length|]. cbn. auto.
    + intros U Pp Pt C. assert (U1' : usable t1).
      { destruct (Nat.eq_dec b 0) as [Eb|Eb]; [now apply U1|]. destruct C as [C|C]; [|lia]. apply U2; auto; [|lia]. apply Forall_app. split; [now apply padded_pos|auto]. }
      apply Ur; auto; [apply Forall_app; split; auto; constructor; auto|]. left. now destruct pre.
Qed.
Lemma slice_dim_split : forall st en p1 x p2 s1 n s2 d (t : tensor A), length p1 = length s1 -> length p2 = length s2 ->
  slice_dim z (d + length p1) st en d (p1 ++ x :: p2) (s1 ++ n :: s2) t =
  (do t1 <- slice_center z d p1 s1 t ; do t2 <- slice1 z (d + length p1) st en t1 ; slice_center z (S (d + length p1)) p2 s2 t2).
Proof.
  intros st en. induction p1 as [|[b a] p1 IH]; intros [b' a'] p2 [|m s1] n s2 d t L L2; try discriminate; cbn [app slice_dim slice_center length].
  - rewrite Nat.add_0_r, Nat.eqb_refl. cbn [bind]. destruct (slice1 z d st en t) as [t2| |]; cbn [bind]; auto. cbn [tl].
    assert (Hgen : forall d2 t, d < d2 -> slice_dim z d st en d2 p2 s2 t = slice_center z d2 p2 s2 t); [|apply Hgen; lia].
    clear - L2. revert s2 L2. induction p2 as [|[b a] p2 IH]; intros [|m s2] L d2 t Hd; try discriminate; auto. cbn [slice_dim slice_center].
    replace (d2 =? d) with false by (symmetry; apply Nat.eqb_neq; lia). destruct (slice1 z d2 b (b + m) t); cbn [bind tl]; auto; apply IH; auto.
  - replace (d =? d + S (length p1)) with false by (symmetry; apply Nat.eqb_neq; lia). cbn [tl]. destruct (slice1 z d b (b + m) t) as [t1| |]; cbn [bind]; auto.
    replace (d + S (length p1)) with (S d + length p1) by lia. rewrite IH; auto.
Qed.

Definition none (l : list nat) : list (nat * nat) := map (fun _ => (0, 0)) l.
Lemma none_padded : forall l, padded_shape l (none l) = l.
Proof. induction l as [|n l IH]; [reflexivity|]. unfold none. cbn [map]. rewrite padded_cons. fold (none l). rewrite IH. f_equal. lia. Qed.
Lemma none_shifted : forall l j, length j = length l -> shifted (none l) j = j.
Proof.
  induction l as [|n l IH]; intros [|x j] L; try discriminate; auto. unfold shifted, none. cbn [map combine fst snd]. f_equal. apply (IH j). now injection L.
Qed.
Lemma none_length : forall l, length (none l) = length l.
Proof. intros. apply map_length. Qed.
Lemma padded_only : forall pre n l b a, padded_shape (pre ++ n :: l) (only pre (b, a) l) = pre ++ (n + b + a) :: l.
Proof.
  induction pre as [|x pre IH]; intros n l b a; unfold only; cbn [app map].
  - rewrite padded_cons. f_equal. apply none_padded.
  - rewrite padded_cons. f_equal; [lia|]. apply IH.
Qed.
Lemma length_only : forall pre n l ba, length (only pre ba l) = length (pre ++ n :: l).
Proof. intros. unfold only. rewrite !app_length. cbn [length]. now rewrite !map_length. Qed.

(** the part of [g] at positions [st..en] of the padded axis *)
Lemma part_ok : forall pre n l ba m st en (t : tensor A), good t -> tshape t = pre ++ m :: l -> all_pos pre -> all_pos l -> st < en <= m ->
  exists r, slice_dim z (length pre) st en 0 (only pre ba l) (pre ++ n :: l) t = Ok r /\ good r /\ tshape r = pre ++ (en - st) :: l /\
    forall i a j, valid pre i -> a < en - st -> valid l j -> elem r (i ++ a :: j) = elem t (i ++ (st + a) :: j).
Proof.
  intros pre n l ba m st en t G St Pp Pl H.
  assert (Hd : length pre = 0 + length (none pre)) by (now rewrite none_length). rewrite Hd. unfold only. fold (none pre) (none l).
  rewrite slice_dim_split by apply none_length.
  destruct (slice_center_ok (none pre) pre [] (m :: l) t G) as (t1 & E1 & G1 & S1 & H1 & _); auto; [now rewrite none_padded|].
  cbn [length app] in *. rewrite E1. cbn [bind plus]. rewrite none_length.
  destruct (slice1_ok A z t1 pre m l st en G1 S1 H) as (t2 & E2 & G2 & S2 & H2 & _). rewrite E2. cbn [bind].
  destruct (slice_center_ok (none l) l (pre ++ [en - st]) [] t2 G2) as (t3 & E3 & G3 & S3 & H3 & _); [|apply none_length|exact Pl|].
  { rewrite S2, none_padded, app_nil_r, <- app_assoc. reflexivity. }
  rewrite app_length in E3. cbn [length] in E3. rewrite Nat.add_1_r in E3. exists t3. split; [exact E3|]. split; auto.
  split; [rewrite S3, app_nil_r, <- app_assoc; reflexivity|]. intros i a j Vi Va Vj.
  assert (V1 : valid (pre ++ [en - st]) (i ++ [a])) by (apply valid_app; [now apply valid_length|cbn; auto]).
  pose proof (H3 (i ++ [a]) j [] V1 Vj I) as Q. rewrite !app_nil_r in Q. rewrite none_shifted in Q by now apply valid_length. rewrite <- !app_assoc in Q. cbn [app] in Q. rewrite Q.
  rewrite H2; auto. pose proof (H1 [] i ((st + a) :: j) I Vi ltac:(cbn; split; [lia|auto])) as Q1. cbn [app] in Q1. rewrite Q1. f_equal. f_equal. rewrite none_shifted; auto. now apply valid_length.
Qed.
End Slices2.

(* ---------- adding to the first positions of an axis ---------- *)
Section Add.
Variables (A : Type) (e : env) (z d0 : A) (add : A -> A -> A).
Hypothesis He : env_ok e.
Lemma app_pos : forall pre n l, all_pos pre -> 0 < n -> all_pos l -> all_pos (pre ++ n :: l).
Proof. intros. apply Forall_app. split; auto; constructor; auto. Qed.
Lemma add_into_ok : forall (gi part : tensor A) pre n l m, good gi -> usable gi -> good part ->
  tshape gi = pre ++ n :: l -> tshape part = pre ++ m :: l -> all_pos pre -> all_pos l -> 0 < m <= n -> length (pre ++ n :: l) <= 16 ->
  exists r, add_into e z add gi (length pre) 0 m part = Ok r /\ good r /\ usable r /\ tshape r = pre ++ n :: l /\
    forall i a j, valid pre i -> a < n -> valid l j ->
      if a <? m then exists x y, elem gi (i ++ a :: j) = Some x /\ elem part (i ++ a :: j) = Some y /\ elem r (i ++ a :: j) = Some (add x y)
      else elem r (i ++ a :: j) = elem gi (i ++ a :: j).
Proof.
  intros gi part pre n l m Gg Ug Gp Sg Sp Pp Pl Hm H16. unfold add_into.
  destruct (slice1_ok A z gi pre n l 0 m Gg Sg ltac:(lia)) as (tg & E1 & G1 & S1 & H1 & U1 & _). rewrite E1. cbn [bind]. rewrite Nat.sub_0_r in *.
  assert (Ut : usable tg) by (now apply U1). assert (Pm : all_pos (pre ++ m :: l)) by (apply app_pos; auto; lia).
  assert (BI : bcast (tshape tg) (tshape part) (pre ++ m :: l)) by (rewrite S1, Sp; apply bcast_idem).
  destruct (t_binary_storage A A A e z z z add tg part (pre ++ m :: l)) as (ad & a' & E2 & S2 & Ta & La & Ls & Hv); auto; try (rewrite ?S1, ?Sp; auto; fail).
  unfold t_plus. rewrite E2. cbn [bind].
  destruct (t_contiguous_spec A z tg G1) as [c [Ec [Gc [Sc [Cc _]]]]].
  destruct (t_broadcast_addr A z tg c (pre ++ m :: l) a' G1 Ec Ta) as [Sa' [_ Had]].
  assert (Hoff : loffset (tlay c) = 0) by (exact (usable_contig A z tg c G1 Ut Ec)).
  destruct (t_broadcast_spec A z tg (pre ++ m :: l) G1) as [a2 [Ea2 [Ga2 _]]].
  { apply (proj1 (bcast_views _ _ _ BI)). }
  rewrite Ta in Ea2. injection Ea2 as <-.
  assert (AD : forall i, valid (pre ++ m :: l) i -> addr (tlay ad) i = ravel (pre ++ m :: l) i).
  { intros i Hi. rewrite La, Had, S1, bidx_self by auto. rewrite addr_contiguous; auto; [|apply Gc|].
    - rewrite Hoff. change (lshape (tlay c)) with (tshape c). now rewrite Sc, S1.
    - change (lshape (tlay c)) with (tshape c). rewrite Sc, S1. now apply valid_length. }
  assert (Gad : good ad).
  { split; [rewrite La; apply Ga2|]. intros i Hi. change (lshape (tlay ad)) with (tshape ad) in Hi. rewrite S2 in Hi. rewrite AD, Ls by auto. now apply ravel_lt. }
  assert (Uad : usable ad).
  { left. pose proof (zeros_valid _ Pm) as ZV. pose proof (AD _ ZV) as A0. rewrite addr_zeros in A0. rewrite A0. clear. induction (pre ++ m :: l) as [|x q IH]; cbn; auto. }
  assert (Had' : forall i a j, valid pre i -> a < m -> valid l j -> exists x y, elem gi (i ++ a :: j) = Some x /\ elem part (i ++ a :: j) = Some y /\ elem ad (i ++ a :: j) = Some (add x y)).
  { intros i a j Vi Va Vj. assert (V : valid (pre ++ m :: l) (i ++ a :: j)) by (apply valid_app; [now apply valid_length|cbn; auto]).
    destruct (Hv _ V) as (x & y & Hx & Hy & Hz). rewrite S1, bidx_self in Hx by auto. rewrite Sp, bidx_self in Hy by auto. exists x, y.
    rewrite H1 in Hx by auto. cbn [plus] in Hx. split; auto. split; auto. unfold elem. now rewrite AD. }
  unfold replace_dim. change (lshape (tlay gi)) with (tshape gi). rewrite Sg. unfold idx_or_panic. rewrite nth_error_app2, Nat.sub_diag by lia. cbn [nth_error bind Nat.eqb andb].
  destruct (Nat.eqb_spec m n) as [->|NE].
  - exists ad. split; [reflexivity|]. split; auto. split; auto. split; auto. intros i a j Vi Va Vj. replace (a <? n) with true by (symmetry; apply Nat.ltb_lt; lia). auto.
  - change (0 <? 0) with false. cbn [bind app]. replace (m <? n) with true by (symmetry; apply Nat.ltb_lt; lia).
    destruct (slice1_ok A z gi pre n l m n Gg Sg ltac:(lia)) as (af & E3 & G3 & S3 & H3 & _). rewrite E3. cbn [bind app].
    assert (AX : axis_of (length (pre ++ m :: l)) (Z.of_nat (length pre)) = length pre) by (unfold axis_of; destruct (Z.ltb_spec (Z.of_nat (length pre)) 0); lia).
    destruct (t_concat_spec A z d0 ad [af] (Z.of_nat (length pre))) as (r & Er & Gr & Lr & Hr).
    + repeat constructor; auto; apply Gad || apply G3.
    + rewrite S2. unfold axis_ok. rewrite app_length. cbn [length]. lia.
    + rewrite S2. rewrite app_length in *. cbn [length] in *. lia.
    + rewrite S2, AX. intros t [<-|[<-|[]]].
      * rewrite S2. split; auto.
      * rewrite S3. split; [rewrite !app_length; reflexivity|]. intros k Hk. destruct (Nat.lt_ge_cases k (length pre)); [now rewrite !nth_error_app1|].
        rewrite !nth_error_app2 by lia. destruct (k - length pre) eqn:Ek; [lia|reflexivity].
    + intros [|j] t Hj Hn; cbn [length] in Hj; [|lia]. cbn in Hn. injection Hn as <-. now rewrite S2.
    + rewrite S2, AX in *. assert (NTH : forall q x, nth (length pre) (pre ++ x :: q) 0 = x) by (intros; rewrite app_nth2, Nat.sub_diag by lia; reflexivity).
      assert (AXS : axis_sizes (length pre) [ad; af] = [m; n - m]) by (unfold axis_sizes; cbn [map]; now rewrite S2, S3, !NTH).
      rewrite AXS in Lr, Hr. cbn [list_sum fold_right] in Lr.
      assert (UPD : forall q x y, upd (pre ++ x :: q) (length pre) y = pre ++ y :: q) by (clear; intros q x y; induction pre as [|p pre IH]; cbn [app length upd]; [reflexivity|now rewrite IH]).
      rewrite UPD in Lr. replace (m + (n - m + 0)) with n in Lr by lia.
      exists r. split; [exact Er|]. split; [exact Gr|]. split; [left; now rewrite Lr|]. split; [unfold tshape; now rewrite Lr|].
      assert (ADJ : forall (i : list nat) a j f, length i = length pre -> adjust (length pre) f (i ++ a :: j) = i ++ f a :: j).
      { intros i a j f Li. rewrite <- Li. clear. induction i as [|x i IH]; cbn [app length]; [reflexivity|]. now rewrite adjust_S, IH. }
      intros i a j Vi Va Vj. pose proof (valid_length _ _ Vi) as Li. destruct (Nat.ltb_spec a m) as [Ham|Ham].
      * destruct (Had' i a j Vi Ham Vj) as (x & y & Q1 & Q2 & Q3). exists x, y. split; auto. split; auto. rewrite <- Q3.
        assert (V : valid (tshape ad) (i ++ a :: j)) by (rewrite S2; apply valid_app; [exact Li|cbn; auto]).
        pose proof (Hr 0 ad _ eq_refl V) as Q. rewrite ADJ in Q by exact Li. cbn [firstn list_sum fold_right] in Q. now rewrite Nat.add_0_r in Q.
      * assert (V : valid (tshape af) (i ++ (a - m) :: j)) by (rewrite S3; apply valid_app; [exact Li|split; [exact Vi|cbn; split; [lia|auto]]]).
        pose proof (Hr 1 af _ eq_refl V) as Q. rewrite ADJ in Q by exact Li. cbn [firstn list_sum fold_right] in Q. rewrite H3 in Q by (auto; lia).
        replace (m + (a - m)) with a in Q by lia. replace (a - m + (m + 0)) with a in Q by lia. exact Q.
Qed.
End Add.

(* ---------- sums ---------- *)
Lemma Sum_mid : forall b n a (G : nat -> R),
  Sum (seq 0 (n + b + a)) G = (Sum (seq 0 n) (fun x => G (b + x)%nat) + Sum (seq 0 (n + b + a)) (fun c => if (b <=? c) && (c <? b + n) then 0%R else G c))%R.
Proof.
  intros b n a G. replace (n + b + a) with (b + (n + a)) by lia. rewrite !seq_app, !Sum_app, !Nat.add_0_l.
  assert (E1 : Sum (seq 0 b) (fun c => if (b <=? c) && (c <? b + n) then 0%R else G c) = Sum (seq 0 b) G).
  { apply Sum_ext. intros c Hc. apply in_seq in Hc. replace (b <=? c) with false by (symmetry; apply Nat.leb_gt; lia). reflexivity. }
  assert (E2 : Sum (seq b n) (fun c => if (b <=? c) && (c <? b + n) then 0%R else G c) = 0%R).
  { transitivity (Sum (seq b n) (fun _ => 0%R)); [|apply Sum_zero]. apply Sum_ext. intros c Hc. apply in_seq in Hc.
    replace (b <=? c) with true by (symmetry; apply Nat.leb_le; lia). replace (c <? b + n) with true by (symmetry; apply Nat.ltb_lt; lia). reflexivity. }
  assert (E3 : Sum (seq (b + n) a) (fun c => if (b <=? c) && (c <? b + n) then 0%R else G c) = Sum (seq (b + n) a) G).
  { apply Sum_ext. intros c Hc. apply in_seq in Hc. replace (c <? b + n) with false by (symmetry; apply Nat.ltb_ge; lia). now rewrite andb_false_r. }
  rewrite E1, E2, E3. rewrite (seq_shift_by b n), Sum_map.
  replace (Sum (seq 0 n) (fun x => G (x + b)%nat)) with (Sum (seq 0 n) (fun x => G (b + x)%nat)) by (apply Sum_ext; intros; f_equal; lia). lra.
Qed.
Lemma Sum_inside : forall padding s F, length padding = length s ->
  Sum (all_idx (padded_shape s padding)) F =
  (Sum (all_idx s) (fun j => F (shifted padding j)) + Sum (all_idx (padded_shape s padding)) (fun i => if inside padding s i then 0%R else F i))%R.
Proof.
  induction padding as [|[b a] padding IH]; intros [|n s] F L; try discriminate.
  - cbn [padded_shape combine map all_idx]. rewrite !Sum_cons, !Sum_nil. cbn [shifted inside combine map]. lra.
  - injection L as L. rewrite padded_cons, !Sum_axis. set (P := padded_shape s padding) in *.
    transitivity (Sum (seq 0 (n + b + a)) (fun c => Sum (all_idx s) (fun j => F (c :: shifted padding j)) + Sum (all_idx P) (fun i => if inside padding s i then 0%R else F (c :: i)))%R).
    { apply Sum_ext. intros c _. now apply IH. }
    rewrite Sum_plus. rewrite (Sum_mid b n a (fun c => Sum (all_idx s) (fun j => F (c :: shifted padding j)))).
    rewrite Rplus_assoc. f_equal. rewrite <- Sum_plus. apply Sum_ext. intros c _. cbn [inside].
    destruct ((b <=? c) && (c <? b + n)) eqn:C; cbn [andb].
    + rewrite Rplus_0_l. reflexivity.
    + symmetry. apply (IH s (fun i => F (c :: i)) L).
Qed.
Lemma Sum_at : forall pre n l F, Sum (all_idx (pre ++ n :: l)) F = Sum (all_idx pre) (fun i => Sum (seq 0 n) (fun x => Sum (all_idx l) (fun j => F (i ++ x :: j)))).
Proof.
  induction pre as [|p pre IH]; intros n l F; cbn [app].
  - rewrite Sum_axis. cbn [all_idx]. rewrite Sum_cons, Sum_nil. cbn [app]. lra.
  - rewrite !Sum_axis. apply Sum_ext. intros x _. rewrite IH. reflexivity.
Qed.
Lemma Sum_pick : forall n k (h : nat -> R), k < n -> Sum (seq 0 n) (fun x => ind (k =? x) (h x)) = h k.
Proof.
  induction n as [|n IH]; intros k h H; [lia|]. rewrite seq_S, Sum_app, Sum_cons, Sum_nil. cbn [plus].
  destruct (Nat.eq_dec k n) as [->|NE].
  - rewrite Nat.eqb_refl. unfold ind at 2. replace (Sum (seq 0 n) (fun x => ind (n =? x) (h x))) with 0%R; [lra|]. symmetry.
    transitivity (Sum (seq 0 n) (fun _ => 0%R)); [|apply Sum_zero]. apply Sum_ext. intros x Hx. apply in_seq in Hx. now replace (n =? x) with false by (symmetry; apply Nat.eqb_neq; lia).
  - rewrite IH by lia. replace (k =? n) with false by (symmetry; now apply Nat.eqb_neq). unfold ind. lra.
Qed.

(* ---------- where the elements of a padded tensor come from ---------- *)
Lemma pad_src_id : forall m n c, c < n -> pad_src m (Z.of_nat n) (Z.of_nat c - Z.of_nat 0) (Z.of_nat c).
Proof.
  intros m n c H. split; [lia|]. destruct m; try lia.
  - right. exists 0%Z. left. lia.
  - exists 0%Z. lia.
Qed.
Lemma pad_source_cons : forall m n s b before c i y ys, pad_src m (Z.of_nat n) (Z.of_nat c - Z.of_nat b) (Z.of_nat y) -> pad_source m s before i ys ->
  pad_source m (n :: s) (b :: before) (c :: i) (y :: ys).
Proof.
  intros m n s b before c i y ys H [L Q]. split; [cbn; lia|]. intros [|p] n' b' c' y' H1 H2 H3 H4; cbn in H1, H2, H3, H4.
  - congruence.
  - exact (Q p _ _ _ _ H1 H2 H3 H4).
Qed.
Lemma pad_source_none : forall m l j, valid l j -> pad_source m l (map fst (none l)) j j.
Proof.
  induction l as [|n l IH]; intros [|x j] V; try (now destruct V).
  - split; auto. intros [|p]; discriminate.
  - destruct V as [V1 V2]. unfold none. cbn [map fst]. apply pad_source_cons; [now apply pad_src_id|]. apply IH; auto.
Qed.
Lemma pad_source_only : forall m pre n l b a i c j y, valid pre i -> valid l j -> pad_src m (Z.of_nat n) (Z.of_nat c - Z.of_nat b) (Z.of_nat y) ->
  pad_source m (pre ++ n :: l) (map fst (only pre (b, a) l)) (i ++ c :: j) (i ++ y :: j).
Proof.
  induction pre as [|p pre IH]; intros n l b a [|x i] c j y Vi Vj H; try (now destruct Vi); unfold only; cbn [app map fst].
  - apply pad_source_cons; auto. now apply pad_source_none.
  - destruct Vi as [V1 V2]. apply pad_source_cons; [now apply pad_src_id|]. apply IH; auto.
Qed.
Lemma pad_source_inside : forall padding s j, length padding = length s -> valid s j -> pad_source PadConstant s (map fst padding) (shifted padding j) j.
Proof.
  induction padding as [|[b a] padding IH]; intros [|n s] [|x j] L V; try discriminate; try (now destruct V).
  - split; auto. intros [|p]; discriminate.
  - destruct V as [V1 V2]. cbn [shifted combine map fst snd]. apply pad_source_cons; [split; lia|]. apply IH; auto.
Qed.
Lemma pad_source_outside : forall padding s i, length padding = length s -> length i = length s -> inside padding s i = false ->
  ~ exists ys, pad_source PadConstant s (map fst padding) i ys.
Proof.
  induction padding as [|[b a] padding IH]; intros [|n s] [|c i] L Li H [ys [Ly Q]]; try discriminate. destruct ys as [|y ys]; [discriminate|]. cbn [inside] in H.
  destruct (Q 0 n b c y eq_refl eq_refl eq_refl eq_refl) as [Q1 Q2].
  replace (b <=? c) with true in H by (symmetry; apply Nat.leb_le; lia). replace (c <? b + n) with true in H by (symmetry; apply Nat.ltb_lt; lia). cbn [andb] in H.
  apply (IH s i); auto. exists ys. split; [now injection Ly|]. intros p n' b' c' y' H1 H2 H3 H4. exact (Q (S p) _ _ _ _ H1 H2 H3 H4).
Qed.

(* ---------- constant padding ---------- *)
Section Constant.
Variables (e : env) (z : R) (padding : list (nat * nat)) (s : list nat) (g : tensor R).
Hypotheses (L : length padding = length s) (P : all_pos s) (Gg : good g) (Sg : tshape g = padded_shape s padding).
Lemma vjp_pad_constant : exists gx, vjp_pad e z Rplus PadConstant padding s g = Ok gx /\ good gx /\ tshape gx = s /\
  (forall j, valid s j -> elem gx j = elem g (shifted padding j)) /\
  forall z' pv, exists K, forall t, good t -> plain_layout t -> tshape t = s ->
    exists y, t_pad z' PadConstant pv t padding = Ok y /\ tshape y = tshape g /\ pairing g y = (pairing gx t + K)%R.
Proof.
  unfold vjp_pad. destruct (slice_center_ok R z padding s [] [] g Gg) as (gx & E & Gx & Sx & Hx & _); auto; [now rewrite app_nil_r|].
  cbn [length app] in *. rewrite app_nil_r in Sx. rewrite E. cbn [bind]. exists gx. split; auto. split; auto. split; auto.
  assert (Hx' : forall j, valid s j -> elem gx j = elem g (shifted padding j)).
  { intros j V. pose proof (Hx [] j [] I V I) as Q. cbn [app] in Q. now rewrite !app_nil_r in Q. }
  split; [exact Hx'|]. intros z' pv.
  exists (Sum (all_idx (padded_shape s padding)) (fun i => if inside padding s i then 0 else val g i * pv))%R. intros t Gt Pt St.
  destruct (t_pad_spec R z' 0%R PadConstant pv t padding Gt Pt) as (y & Ey & Gy & Ly & Hy); rewrite ?St; auto. rewrite St in *.
  exists y. split; [exact Ey|]. split; [unfold tshape at 1; rewrite Ly, Sg; reflexivity|].
  unfold pairing. rewrite Sg, Sx. fold (Sum (all_idx (padded_shape s padding)) (fun i => val g i * val y i)%R). rewrite Sum_inside by exact L. f_equal.
  - apply Sum_idx_ext. intros j V. f_equal; apply val_elem; [now rewrite Hx'|].
    destruct (Hy (shifted padding j) (shifted_valid _ _ _ L V)) as (Q & _). apply Q. now apply pad_source_inside.
  - apply Sum_idx_ext. intros i V. destruct (inside padding s i) eqn:C; [reflexivity|]. f_equal.
    destruct (Hy i V) as (_ & Q & _). apply val_some. apply Q. split; [reflexivity|]. apply pad_source_outside; auto. rewrite (valid_length _ _ V). unfold padded_shape. rewrite map_length, combine_length. lia.
Qed.
End Constant.

(* ---------- one padded axis ---------- *)
Section Axis.
Variables (m : pad_mode) (pre l : list nat) (n b a : nat) (src : nat -> nat) (g gx : tensor R).
Hypotheses (Pp : all_pos pre) (Pn : 0 < n) (Pl : all_pos l) (Sg : tshape g = pre ++ (n + b + a) :: l) (Sx : tshape gx = pre ++ n :: l).
Hypothesis Hsrc : forall c, c < n + b + a -> src c < n /\ pad_src m (Z.of_nat n) (Z.of_nat c - Z.of_nat b) (Z.of_nat (src c)).
Hypothesis Hgx : forall i x j, valid pre i -> x < n -> valid l j ->
  val gx (i ++ x :: j) = Sum (seq 0 (n + b + a)) (fun c => ind (src c =? x) (val g (i ++ c :: j))).
Lemma one_axis : forall z pv t, good t -> plain_layout t -> tshape t = pre ++ n :: l ->
  exists y, t_pad z m pv t (only pre (b, a) l) = Ok y /\ tshape y = tshape g /\ pairing g y = pairing gx t.
Proof.
  intros z pv t Gt Pt St.
  destruct (t_pad_spec R z 0%R m pv t (only pre (b, a) l) Gt Pt) as (y & Ey & Gy & Ly & Hy); rewrite ?St; [apply length_only|right; apply app_pos; auto|]. rewrite St, padded_only in *.
  exists y. split; [exact Ey|]. split; [unfold tshape at 1; rewrite Ly, Sg; reflexivity|].
  unfold pairing. rewrite Sg, Sx. fold (Sum (all_idx (pre ++ (n + b + a) :: l)) (fun i => val g i * val y i)%R). fold (Sum (all_idx (pre ++ n :: l)) (fun i => val gx i * val t i)%R).
  rewrite !Sum_at. apply Sum_idx_ext. intros i Vi.
  transitivity (Sum (seq 0 (n + b + a)) (fun c => Sum (all_idx l) (fun j => Sum (seq 0 n) (fun x => ind (src c =? x) (val g (i ++ c :: j) * val t (i ++ x :: j))%R)))).
  - apply Sum_ext. intros c Hc. apply in_seq in Hc. apply Sum_idx_ext. intros j Vj. destruct (Hsrc c ltac:(lia)) as [S1 S2].
    rewrite Sum_pick by exact S1. f_equal. apply val_elem. destruct (Hy (i ++ c :: j)) as (Q & _).
    { apply valid_app; [now apply valid_length|]. split; [exact Vi|]. cbn. split; [lia|auto]. }
    apply Q. now apply pad_source_only.
  - transitivity (Sum (seq 0 n) (fun x => Sum (seq 0 (n + b + a)) (fun c => Sum (all_idx l) (fun j => ind (src c =? x) (val g (i ++ c :: j) * val t (i ++ x :: j))%R)))).
    + symmetry. rewrite Sum_swap. apply Sum_ext. intros c _. apply Sum_swap.
    + apply Sum_ext. intros x Hx. apply in_seq in Hx. rewrite Sum_swap. apply Sum_idx_ext. intros j Vj. rewrite Hgx by (auto; lia).
      rewrite Rmult_comm, Sum_scale. apply Sum_ext. intros c _. rewrite ind_scale. f_equal. lra.
Qed.
End Axis.

(* ---------- the loop over the axes, when only one is padded ---------- *)
Section Loop.
Variables (e : env) (z : R) (m : pad_mode) (pre l : list nat) (n b a : nat) (g : tensor R).
Lemma pad_axes_skip : forall k d gi, (forall q, d <= q < d + k -> nth_error (only pre (b, a) l) q = Some (0, 0) /\ exists x, nth_error (pre ++ n :: l) q = Some x) ->
  pad_axes e z Rplus m (only pre (b, a) l) (pre ++ n :: l) g d k gi = Ok gi.
Proof.
  induction k as [|k IH]; intros d gi H; [reflexivity|]. cbn [pad_axes]. destruct (H d ltac:(lia)) as [E1 [x E2]].
  unfold pad_axis. rewrite E1. cbn [bind]. unfold idx_or_panic. rewrite E2. cbn [bind Nat.ltb Nat.leb andb]. apply IH. intros q Hq. apply H. lia.
Qed.
Lemma pad_axes_app : forall k k' d gi, pad_axes e z Rplus m (only pre (b, a) l) (pre ++ n :: l) g d (k + k') gi =
  (do x <- pad_axes e z Rplus m (only pre (b, a) l) (pre ++ n :: l) g d k gi ; pad_axes e z Rplus m (only pre (b, a) l) (pre ++ n :: l) g (d + k) k' x).
Proof.
  induction k as [|k IH]; intros k' d gi; cbn [plus pad_axes].
  - cbn [bind]. now rewrite Nat.add_0_r.
  - destruct (pad_axis e z Rplus m _ _ g d gi) as [x| |]; cbn [bind]; auto. rewrite IH. now rewrite Nat.add_succ_r.
Qed.
Lemma pad_axes_only : forall gi, pad_axes e z Rplus m (only pre (b, a) l) (pre ++ n :: l) g 0 (length (pre ++ n :: l)) gi =
  pad_axis e z Rplus m (only pre (b, a) l) (pre ++ n :: l) g (length pre) gi.
Proof.
  intros gi. rewrite app_length. cbn [length]. rewrite pad_axes_app. rewrite pad_axes_skip.
  - cbn [bind plus pad_axes]. destruct (pad_axis e z Rplus m _ _ g (length pre) gi) as [x| |] eqn:E; cbn [bind]; auto. apply pad_axes_skip.
    intros q Hq. unfold only. rewrite !nth_error_app2 by (rewrite ?map_length; lia). rewrite map_length. destruct (q - length pre) as [|k] eqn:Ek; [lia|]. cbn [nth_error].
    destruct (nth_error l k) as [x'|] eqn:Ex; [|apply nth_error_None in Ex; lia]. split; [|eauto]. now rewrite nth_error_map, Ex.
  - intros q Hq. unfold only. rewrite !nth_error_app1 by (rewrite ?map_length; lia). destruct (nth_error pre q) as [x'|] eqn:Ex; [|apply nth_error_None in Ex; lia]. split; [|eauto]. now rewrite nth_error_map, Ex.
Qed.
Lemma only_at : nth_error (only pre (b, a) l) (length pre) = Some (b, a).
Proof. unfold only. rewrite nth_error_app2 by (rewrite map_length; lia). rewrite map_length, Nat.sub_diag. reflexivity. Qed.
End Loop.
Lemma shifted_only : forall l b a pre i x j, valid pre i -> valid l j -> shifted (only pre (b, a) l) (i ++ x :: j) = i ++ (b + x) :: j.
Proof.
  intros l b a. induction pre as [|p pre IH]; intros [|y i] x j Vi Vj; try (now destruct Vi); unfold only, shifted; cbn [app map combine fst snd].
  - f_equal. apply (none_shifted l). now apply valid_length.
  - f_equal. destruct Vi. now apply IH.
Qed.

(* ---------- circular padding after one axis ---------- *)
Lemma upd_at : forall pre q (x y : nat), upd (pre ++ x :: q) (length pre) y = pre ++ y :: q.
Proof. intros pre q x y; induction pre as [|p pre IH]; cbn [app length upd]; [reflexivity|now rewrite IH]. Qed.
Lemma Sum_pick' : forall n k (h : nat -> R), k < n -> Sum (seq 0 n) (fun x => ind (x =? k) (h x)) = h k.
Proof. intros n k h H. rewrite <- (Sum_pick n k h H). apply Sum_ext. intros x _. now rewrite Nat.eqb_sym. Qed.
Lemma Sum_miss : forall (l : list nat) (p : nat -> bool) (h : nat -> R), (forall x, In x l -> p x = false) -> Sum l (fun x => ind (p x) (h x)) = 0%R.
Proof. intros l p h H. transitivity (Sum l (fun _ => 0%R)); [|apply Sum_zero]. apply Sum_ext. intros x Hx. now rewrite H. Qed.
Section Modes.
Variables (e : env) (pre l : list nat) (n : nat) (g : tensor R).
Hypotheses (He : env_ok e) (Pp : all_pos pre) (Pn : 0 < n) (Pl : all_pos l) (Gg : good g) (Ug : usable g) (H16 : length (pre ++ n :: l) <= 16).
Lemma center_only : forall b a, tshape g = pre ++ (n + b + a) :: l -> (pre <> [] \/ b = 0) ->
  exists gi, slice_center 0%R 0 (only pre (b, a) l) (pre ++ n :: l) g = Ok gi /\ good gi /\ usable gi /\ tshape gi = pre ++ n :: l /\
    forall i x j, valid pre i -> x < n -> valid l j -> elem gi (i ++ x :: j) = elem g (i ++ (b + x) :: j).
Proof.
  intros b a Sg C.
  destruct (slice_center_ok R 0%R (only pre (b, a) l) (pre ++ n :: l) [] [] g Gg) as (gi & E & Gi & Si & Hi & Ui).
  - cbn [app]. now rewrite app_nil_r, padded_only.
  - apply length_only.
  - now apply app_pos.
  - cbn [length app] in *. rewrite app_nil_r in Si. exists gi. split; auto. split; auto. split.
    + apply Ui; [exact Ug|constructor|constructor|]. destruct C as [C|C]; [|subst b]; right; destruct pre; cbn; auto; congruence.
    + split; auto. intros i x j Vi Vx Vj. assert (V : valid (pre ++ n :: l) (i ++ x :: j)) by (apply valid_app; [now apply valid_length|split; cbn; auto]).
      pose proof (Hi [] (i ++ x :: j) [] I V I) as Q. cbn [app] in Q. rewrite !app_nil_r in Q. now rewrite shifted_only in Q by auto.
Qed.

Lemma vjp_circular_after : forall k, 0 < k <= n -> tshape g = pre ++ (n + k) :: l ->
  exists gx, vjp_pad e 0%R Rplus PadCircular (only pre (0, k) l) (pre ++ n :: l) g = Ok gx /\ good gx /\ tshape gx = pre ++ n :: l /\
    forall z pv t, good t -> plain_layout t -> tshape t = pre ++ n :: l ->
      exists y, t_pad z PadCircular pv t (only pre (0, k) l) = Ok y /\ tshape y = tshape g /\ pairing g y = pairing gx t.
Proof.
  intros k Hk Sg. destruct (center_only 0 k) as (gi & E & Gi & Ui & Si & Hi); [now rewrite Nat.add_0_r|now right|].
  unfold vjp_pad. rewrite E. cbn [bind]. rewrite pad_axes_only. unfold pad_axis. rewrite only_at. cbn [bind]. unfold idx_or_panic. rewrite nth_error_app2, Nat.sub_diag by lia. cbn [nth_error bind].
  change (0 <? 0) with false. cbn [andb bind negb]. replace (0 <? k) with true by (symmetry; apply Nat.ltb_lt; lia). cbn [andb].
  change (lshape (tlay g)) with (tshape g). rewrite Sg. rewrite nth_error_app2, Nat.sub_diag by lia. cbn [nth_error bind]. unfold usize_sub.
  replace (n + k <? k) with false by (symmetry; apply Nat.ltb_ge; lia). cbn [bind]. replace (n + k - k) with n by lia.
  destruct (part_ok R 0%R pre n l (0, k) (n + k) n (n + k) g Gg Sg Pp Pl ltac:(lia)) as (rt & Er & Gr & Sr & Hr). rewrite Er. cbn [bind]. replace (n + k - n) with k in * by lia.
  unfold circular_right. destruct (add_into_ok R e 0%R 0%R Rplus He gi rt pre n l k Gi Ui Gr Si Sr Pp Pl Hk H16) as (gx & Ex & Gx & _ & Sx & Hx).
  rewrite Ex. exists gx. split; auto. split; auto. split; auto.
  intros z pv t Gt Pt St. rewrite <- Sg. apply (one_axis PadCircular pre l n 0 k (fun c => if c <? n then c else c - n)); auto.
  - now rewrite Nat.add_0_r.
  - intros c Hc. destruct (Nat.ltb_spec c n) as [L|L].
    + split; [lia|]. now apply pad_src_id.
    + split; [lia|]. split; [lia|]. exists 1%Z. lia.
  - intros i x j Vi Vx Vj. rewrite Nat.add_0_r, seq_app, Sum_app. cbn [plus].
    assert (E1 : Sum (seq 0 n) (fun c => ind ((if c <? n then c else c - n) =? x) (val g (i ++ c :: j))) = val g (i ++ x :: j)).
    { transitivity (Sum (seq 0 n) (fun c => ind (c =? x) (val g (i ++ c :: j)))); [|exact (Sum_pick' n x (fun c => val g (i ++ c :: j)) Vx)]. apply Sum_ext. intros c Hc. apply in_seq in Hc. now replace (c <? n) with true by (symmetry; apply Nat.ltb_lt; lia). }
    assert (E2 : Sum (seq n k) (fun c => ind ((if c <? n then c else c - n) =? x) (val g (i ++ c :: j))) = Sum (seq 0 k) (fun c => ind (c =? x) (val g (i ++ (n + c) :: j)))).
    { rewrite (seq_shift_by n k), Sum_map. apply Sum_ext. intros c _. replace (c + n <? n) with false by (symmetry; apply Nat.ltb_ge; lia). replace (c + n - n) with c by lia. now rewrite (Nat.add_comm c n). }
    rewrite E1, E2. specialize (Hx i x j Vi Vx Vj). destruct (Nat.ltb_spec x k) as [L|L].
    + destruct Hx as (u & v & Q1 & Q2 & Q3). rewrite (Sum_pick' k x _ L). rewrite (val_some _ _ _ Q3).
      rewrite Hi in Q1 by auto. rewrite Hr in Q2 by auto. cbn [plus] in Q1. now rewrite (val_some _ _ _ Q1), (val_some _ _ _ Q2).
    + rewrite Sum_miss by (intros c Hc; apply in_seq in Hc; apply Nat.eqb_neq; lia). rewrite Rplus_0_r. apply val_elem. rewrite Hx. now rewrite Hi.
Qed.

(* ---------- replicate padding before one axis, not the first ---------- *)
Lemma vjp_replicate_before : forall b, pre <> [] -> 0 < b -> tshape g = pre ++ (n + b) :: l ->
  exists gx, vjp_pad e 0%R Rplus PadReplicate (only pre (b, 0) l) (pre ++ n :: l) g = Ok gx /\ good gx /\ tshape gx = pre ++ n :: l /\
    forall z pv t, good t -> plain_layout t -> tshape t = pre ++ n :: l ->
      exists y, t_pad z PadReplicate pv t (only pre (b, 0) l) = Ok y /\ tshape y = tshape g /\ pairing g y = pairing gx t.
Proof.
  intros b NE Hb Sg. destruct (center_only b 0) as (gi & E & Gi & Ui & Si & Hi); [now rewrite Nat.add_0_r|now left|].
  unfold vjp_pad. rewrite E. cbn [bind]. rewrite pad_axes_only. unfold pad_axis. rewrite only_at. cbn [bind]. unfold idx_or_panic. rewrite nth_error_app2, Nat.sub_diag by lia. cbn [nth_error bind].
  change (0 <? 0) with false. cbn [andb negb]. replace (0 <? b) with true by (symmetry; apply Nat.ltb_lt; lia). cbn [andb].
  destruct (part_ok R 0%R pre n l (b, 0) (n + b) 0 b g Gg Sg Pp Pl ltac:(lia)) as (lf & Er & Gr & Sr & Hr). rewrite Er. cbn [bind]. rewrite Nat.sub_0_r in *.
  unfold replicate_left.
  assert (NB : nth_error (pre ++ b :: l) (length pre) = Some b) by (rewrite nth_error_app2, Nat.sub_diag by lia; reflexivity).
  assert (LL : length (pre ++ b :: l) = length (pre ++ n :: l)) by (rewrite !app_length; reflexivity).
  destruct (reduce_plain R R R 0%R Rplus (fun _ b => b) 0%R 0%R lf [Z.of_nat (length pre)] [length pre] true Gr) as (sm & Es & Gs & Ls & Hs).
  { rewrite Sr. apply (axes_nat _ [length pre]); [repeat constructor; rewrite app_length; cbn; lia|discriminate]. }
  { repeat constructor. intros []. }
  { rewrite Sr. lia. }
  { now left. }
  rewrite Es. cbn [bind]. rewrite Sr in Ls, Hs. unfold rshape in Ls. rewrite <- (Nat.add_0_r (length pre)) in Ls at 1. rewrite set_axes_one, upd_at in Ls.
  assert (Ss : tshape sm = pre ++ 1 :: l) by (unfold tshape; now rewrite Ls). rewrite Ss in Hs.
  destruct (add_into_ok R e 0%R 0%R Rplus He gi sm pre n l 1 Gi Ui Gs Si Ss Pp Pl ltac:(lia) H16) as (gx & Ex & Gx & _ & Sx & Hx).
  rewrite Ex. cbn [bind]. exists gx. split; auto. split; auto. split; auto.
  intros z pv t Gt Pt St. apply (one_axis PadReplicate pre l n b 0 (fun c => c - b)); auto.
  - now rewrite Nat.add_0_r.
  - intros c Hc. split; [lia|]. split; [lia|]. repeat split; lia.
  - intros i x j Vi Vx Vj. replace (n + b + 0) with (b + n) by lia. rewrite seq_app, Sum_app. cbn [plus].
    assert (E2 : Sum (seq b n) (fun c => ind (c - b =? x) (val g (i ++ c :: j))) = val g (i ++ (b + x) :: j)).
    { transitivity (Sum (seq 0 n) (fun c => ind (c =? x) (val g (i ++ (b + c) :: j)))); [|exact (Sum_pick' n x (fun c => val g (i ++ (b + c) :: j)) Vx)]. rewrite (seq_shift_by b n), Sum_map. apply Sum_ext. intros c _. replace (c + b - b) with c by lia. now rewrite (Nat.add_comm c b). }
    rewrite E2. specialize (Hx i x j Vi Vx Vj). destruct (Nat.ltb_spec x 1) as [L|L].
    + assert (x = 0) by lia. subst x. destruct Hx as (u & v & Q1 & Q2 & Q3). rewrite (val_some _ _ _ Q3).
      rewrite Hi in Q1 by auto. rewrite (val_some _ _ _ Q1). rewrite Rplus_comm. f_equal.
      assert (V1 : valid (pre ++ 1 :: l) (i ++ 0 :: j)) by (apply valid_app; [now apply valid_length|split; cbn; auto]).
      destruct (Hs _ V1) as (L0 & vs & P & F & Q). rewrite Q in Q2. injection Q2 as <-. rewrite fold_Sum, Rplus_0_l.
      assert (EV : vs = map (val lf) L0) by (clear - F; induction F as [|a v L0 vs H F IH]; [reflexivity|]; cbn [map]; rewrite <- IH; f_equal; symmetry; now apply val_some).
      rewrite EV. replace (Sum (map (val lf) L0) (fun x => x)) with (Sum L0 (val lf)) by (rewrite Sum_map; reflexivity). rewrite <- (upd_at pre l b 1) in V1. rewrite (Sum_perm _ _ _ (val lf) P). rewrite <- (Sum_perm _ _ _ (val lf) (fibre_one (length pre) (pre ++ b :: l) (i ++ 0 :: j) b NB V1)).
      rewrite Sum_map. apply Sum_ext. intros c Hc. apply in_seq in Hc. replace (c - b =? 0) with true by (symmetry; apply Nat.eqb_eq; lia). unfold ind.
      rewrite <- (valid_length _ _ Vi), upd_at. apply val_elem. rewrite Hr by (auto; lia). reflexivity.
    + rewrite Sum_miss by (intros c Hc; apply in_seq in Hc; apply Nat.eqb_neq; lia). rewrite Rplus_0_l. apply val_elem. rewrite Hx. now rewrite Hi.
Qed.
End Modes.
