(** The resize kernel in any arithmetic. *)
From Coq Require Import List Arith ZArith Bool Lia.
From Verif Require Import Base IndexSpec LayoutModel ViewSpec KernelModel KernelProofs TensorModel TensorSpec TensorProofs
  EinsumModel EinsumProofs2 CountModel CountProofs ResizeModel.
Import ListNotations.

Lemma clamp_lt : forall i n, 0 < n -> clamp_idx i n < n.
Proof.
  intros i n H. unfold clamp_idx. destruct (Z.ltb_spec i 0); [lia|].
  replace (n =? 0) with false by (symmetry; apply Nat.eqb_neq; lia). cbn [negb andb].
  destruct (Z.ltb_spec (Z.of_nat (n - 1)) i); lia.
Qed.

Section Gen.
  Context {F A : Type}.
  Variables (ar : arith F) (to_f : A -> F) (from_f : F -> A) (dflt : A).

  Fixpoint crds (tr : nat) (n m o : list nat) : list F :=
    match n, m, o with
    | n1 :: n', m1 :: m', o1 :: o' => transform_coord ar o1 n1 m1 tr :: crds tr n' m' o'
    | _, _, _ => []
    end.
  Fixpoint nears (near : nat) (n : list nat) (c : list F) : list nat :=
    match n, c with
    | n1 :: n', c1 :: c' => round_nearest ar c1 n1 near :: nears near n' c'
    | _, _ => []
    end.
  Definition g_lin (f : Z -> F) (c : F) : F :=
    mix ar (a_sub ar c (a_int ar (a_floor ar c))) (f (a_floor ar c)) (f (a_floor ar c + 1)%Z).
  Definition g_cub (f : Z -> F) (c : F) : F :=
    let k := a_floor ar c in
    cubic_interp ar (f (k - 1)%Z) (f k) (f (k + 1)%Z) (f (k + 2)%Z) (a_sub ar c (a_int ar k)).
  Fixpoint g_interp (k : (Z -> F) -> F -> F) (n : list nat) (c : list F) (f : list nat -> F) : F :=
    match n, c with
    | n1 :: n', c1 :: c' => k (fun z => g_interp k n' c' (fun r => f (clamp_idx z n1 :: r))) c1
    | _, _ => f []
    end.
  Definition g_val (mode : rmode) (tr : rcoord) (near : rnear) (X : list nat -> A) (isp osp : list nat)
      (b c : nat) (o : list nat) : A :=
    let cs := crds (coord_val tr) isp osp o in
    match mode, length isp with
    | RLinear, _ => from_f (g_interp g_lin isp cs (fun p => to_f (X (b :: c :: p))))
    | RCubic, 2 => from_f (g_interp g_cub isp cs (fun p => to_f (X (b :: c :: p))))
    | _, _ => X (b :: c :: nears (near_val near) isp cs)
    end.

  Lemma read_resize_eq : forall l out mode tr near, wf_layout l -> length out = length (lshape l) ->
    read_resize (resize_metadata l out mode tr near) =
    Some (mkRz (nelem out) (lshape l) (lstrides l) (loffset l) out mode tr near).
  Proof.
    intros l out mode tr near W L. unfold read_resize, resize_metadata.
    rewrite (read_n_app 2 [nelem out; length (lshape l)]) by reflexivity. cbn [obind nth].
    rewrite read_n_app by reflexivity. cbn [obind]. rewrite read_n_app by auto. cbn [obind].
    rewrite (read_n_app 1 [loffset l]) by reflexivity. cbn [obind nth].
    rewrite read_n_app by auto. cbn [obind]. reflexivity.
  Qed.

  Section Body.
    Variables (t : tensor A) (X : list nat -> A) (B C : nat) (isp osp : list nat).
    Hypotheses (G : good t) (St : tshape t = B :: C :: isp) (Pos : Forall (fun n => 0 < n) isp)
      (HX : forall i, valid (tshape t) i -> elem t i = Some (X i)).

    Lemma rz_read_ok : forall out mode tr near els b c o p, b < B -> c < C -> valid isp p ->
      rz_read (mkRz els (lshape (tlay t)) (lstrides (tlay t)) (loffset (tlay t)) out mode tr near)
        (tstore t) (b :: c :: o) p = Some (X (b :: c :: p)).
    Proof.
      intros out mode tr near els b c o p Hb Hc Hp.
      rewrite <- HX by (rewrite St; cbn; auto). unfold rz_read, elem, addr. cbn [rz_off rz_strides nth].
      destruct G as [W _]. unfold wf_layout in W. fold (tshape t) in W. rewrite St in W.
      destruct (lstrides (tlay t)) as [|s0 [|s1 sr]]; cbn in W; try lia. cbn [nth skipn dot].
      f_equal. lia.
    Qed.
    Lemma rz_readf_ok : forall out mode tr near els b c o p, b < B -> c < C -> valid isp p ->
      rz_readf to_f (mkRz els (lshape (tlay t)) (lstrides (tlay t)) (loffset (tlay t)) out mode tr near)
        (tstore t) (b :: c :: o) p = Some (to_f (X (b :: c :: p))).
    Proof. intros. unfold rz_readf. now rewrite rz_read_ok. Qed.

    Lemma body_ok : forall mode tr near els b c o, b < B -> c < C ->
      length isp = length osp -> length isp = length o -> length isp = 2 \/ length isp = 3 ->
      let m := mkRz els (lshape (tlay t)) (lstrides (tlay t)) (loffset (tlay t)) (B :: C :: osp)
                 (mode_val mode) (coord_val tr) (near_val near) in
      (if rz_mode m =? 0 then rz_nearest ar m (tstore t) (b :: c :: o)
       else if (rz_mode m =? 1) && (length (rz_in m) - 2 =? 2) then rz_bilinear ar to_f from_f m (tstore t) (b :: c :: o)
       else if (rz_mode m =? 1) && (length (rz_in m) - 2 =? 3) then rz_trilinear ar to_f from_f m (tstore t) (b :: c :: o)
       else if (rz_mode m =? 2) && (length (rz_in m) - 2 =? 2) then rz_bicubic ar to_f from_f m (tstore t) (b :: c :: o)
       else rz_nearest ar m (tstore t) (b :: c :: o)) =
      Some (g_val mode tr near X isp osp b c o).
    Proof.
      intros mode tr near els b c o Hb Hc L1 L2 R m.
      assert (Hn : forall p, valid isp p ->
        rz_read m (tstore t) (b :: c :: o) p = Some (X (b :: c :: p))) by (intros; now apply rz_read_ok).
      assert (Hf : forall p, valid isp p ->
        rz_readf to_f m (tstore t) (b :: c :: o) p = Some (to_f (X (b :: c :: p)))) by (intros; now apply rz_readf_ok).
      assert (I : rz_in m = B :: C :: isp) by exact St.
      assert (O : rz_out m = B :: C :: osp) by reflexivity.
      assert (M : rz_mode m = mode_val mode) by reflexivity.
      assert (T : rz_tr m = coord_val tr) by reflexivity.
      assert (N : rz_near m = near_val near) by reflexivity.
      clearbody m. clear HX St G.
      unfold rz_nearest, rz_bilinear, rz_trilinear, rz_bicubic, rz_coord. rewrite I, O, M, T, N. cbn [length Nat.sub].
      assert (CL : forall i n, In n isp -> clamp_idx i n < n)
        by (intros i n Hi; apply clamp_lt; now apply (proj1 (Forall_forall _ _) Pos)).
      destruct isp as [|n1 [|n2 [|n3 [|]]]]; cbn in R, L1, L2; try lia;
        destruct osp as [|m1 [|m2 [|m3 [|]]]]; cbn in L1; try lia;
        destruct o as [|o1 [|o2 [|o3 [|]]]]; cbn in L2; try lia;
        destruct mode; cbn [mode_val Nat.eqb andb length Nat.sub seq map nth Nat.add];
        repeat (first [rewrite Hn by (cbn [valid]; repeat split; try (unfold round_nearest; apply CL; cbn; auto))
                      |rewrite Hf by (cbn [valid]; repeat split; try (unfold round_nearest; apply CL; cbn; auto))]; cbn [obind]);
        rewrite ?Z.add_0_r; reflexivity.
    Qed.
  End Body.

  Lemma t_resize_gen : forall (t : tensor A) size mode tr near X B C isp,
    good t -> tshape t = B :: C :: isp -> length isp = 2 \/ length isp = 3 -> length size = length isp ->
    Forall (fun n => 0 < n) isp -> (forall i, valid (tshape t) i -> elem t i = Some (X i)) ->
    exists r, t_resize ar to_f from_f dflt t size mode tr near = Ok r /\ good r /\ tshape r = B :: C :: size /\
      forall b c o, valid (B :: C :: size) (b :: c :: o) ->
        elem r (b :: c :: o) = Some (g_val mode tr near X isp size b c o).
  Proof.
    intros t size mode tr near X B C isp G St R L Pos HX.
    set (out := B :: C :: size).
    set (h := fun idx => match unravel out idx with b :: c :: o => g_val mode tr near X isp size b c o | _ => dflt end).
    exists (mkT (map h (seq 0 (nelem out))) (from_shape out)).
    assert (E : resize_kernel ar to_f from_f (tstore t) (repeat dflt (nelem out))
              (resize_metadata (tlay t) out (mode_val mode) (coord_val tr) (near_val near)) =
              Some (map h (seq 0 (nelem out)))).
    { unfold resize_kernel. rewrite read_resize_eq.
      2:{ apply G. } 2:{ fold (tshape t). rewrite St. cbn. lia. }
      cbn [obind rz_els rz_out]. apply seq_for_total; [apply repeat_length|].
      intros idx Hi. rewrite c_coords_spec by auto. cbn [obind].
      pose proof (unravel_valid out idx Hi) as V. unfold h.
      destruct (unravel out idx) as [|b [|c o]]; [destruct V|destruct V as [_ []]|].
      destruct V as (V1 & V2 & V3). apply valid_length in V3.
      apply (body_ok t X B C isp size G St Pos HX); auto; lia. }
    split.
    { unfold t_resize. fold (tshape t). rewrite St. cbn [length nth].
      replace (negb (S (S (length isp)) =? 4) && negb (S (S (length isp)) =? 5)) with false
        by (destruct R as [-> | ->]; reflexivity).
      cbn [Nat.sub]. rewrite (proj2 (Nat.eqb_eq (length size) (length isp - 0))) by lia. cbn [negb].
      fold out. rewrite E. reflexivity. }
    split; [apply from_shape_good; now rewrite map_length, seq_length|]. split; [reflexivity|].
    intros b c o V. rewrite elem_fresh by auto. unfold h. now rewrite unravel_ravel by auto.
  Qed.
End Gen.
