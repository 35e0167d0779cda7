(** C45, C46: symbolic shapes and the registry of dynamic dimensions. *)
From Coq Require Import List Arith ZArith NArith Bool Lia.
From Verif Require Import Base IndexSpec LayoutModel LayoutProofs SymbolicModel SymbolicProofs.
Import ListNotations.

(* ================ C45 ================ *)

(** Shapes: conversion, size and axis sizes agree with the concrete shape. *)
Theorem C45_shape : forall c : shape,
  ss_to_concrete (ss_from_concrete c) = Some c
  /\ ss_size (ss_from_concrete c) = Some (nelem c)
  /\ ss_max_size (ss_from_concrete c) = Some (nelem c)
  /\ (forall i, ss_dim_size (ss_from_concrete c) i = shape_dim_size c i).
Proof.
  intro c. unfold ss_from_concrete. split; [now apply to_concrete_iff|]. split; [apply size_concrete|].
  split; [now rewrite max_size_shape, max_shape_concrete|].
  intro i. unfold ss_dim_size, shape_dim_size. rewrite map_length. destruct (as_usize _); [|reflexivity].
  rewrite nth_error_map. destruct (nth_error c n); reflexivity.
Qed.
Print Assumptions C45_shape.
(** A shape converts back only if no dimension is dynamic. *)
Theorem C45_shape_iff : forall s c, ss_to_concrete s = Some c <-> s = ss_from_concrete c.
Proof. exact to_concrete_iff. Qed.
Print Assumptions C45_shape_iff.

(** Layouts: shape and strides survive, the offset becomes 0. *)
Theorem C45_layout_partial : forall l,
  sl_to_concrete (sl_from_concrete l) = Some (mkLayout (lshape l) (lstrides l) 0)
  /\ sl_to_max_layout (sl_from_concrete l) = Some (mkLayout (lshape l) (lstrides l) 0).
Proof.
  intro l. unfold sl_to_concrete, sl_to_max_layout, sl_from_concrete, ss_from_concrete, layout_new. cbn [sl_shape sl_strides].
  rewrite fully_concrete_map, max_shape_concrete.
  replace (ss_to_concrete (map Concrete (lshape l))) with (Some (lshape l)); [split; reflexivity|].
  symmetry. now apply to_concrete_iff.
Qed.
Print Assumptions C45_layout_partial.
Theorem C45_offset_refuted : forall l, loffset l <> 0 ->
  sl_to_concrete (sl_from_concrete l) <> Some l /\ sl_to_max_layout (sl_from_concrete l) <> Some l.
Proof.
  intros l H. destruct (C45_layout_partial l) as [-> ->].
  split; intro K; injection K as K; rewrite <- K in H; cbn in H; congruence.
Qed.
Print Assumptions C45_offset_refuted.

(** Resolving the dimensions one after the other, in any order, gives the layout
    built from the resolved shape. *)
Theorem C45_resolved : forall s l ds l', sl_from_shape s = Some l -> with_dims l ds = Some l' ->
  ss_fully_concrete (sl_shape l') = true ->
  exists c, sl_shape l' = map Concrete c /\ sl_to_concrete l' = Some (from_shape c).
Proof. exact resolved_concrete. Qed.
Print Assumptions C45_resolved.
(** On a view, [with_dim] forgets the strides even when it changes nothing. *)
Theorem C45_view_refuted : exists l i d,
  nth_error (sl_shape l) i = Some d /\ sl_with_dim l i d <> Some l.
Proof.
  exists (sl_from_concrete (mkLayout [2; 3] [1; 2] 0)), 0, (Concrete 2). split; [reflexivity|]. discriminate.
Qed.
Print Assumptions C45_view_refuted.

(** A layout exists exactly if every dynamic dimension has a bound. *)
Theorem C45_from_shape : forall s,
  (exists l, sl_from_shape s = Some l) <-> (forall i, ~ In (Dynamic i None) s).
Proof.
  intro s. rewrite <- from_shape_iff. unfold bounded. rewrite Forall_forall. split.
  - intros H i K. exact (H _ K).
  - intros H d K. destruct d as [n|i [m|]]; auto. exact (H i K).
Qed.
Print Assumptions C45_from_shape.
(** The allocation dominates every resolution within the bounds: size, and the
    addresses of all elements; different elements have different addresses. *)
Theorem C45_bounds : forall s l r M, sl_from_shape s = Some l -> ss_max_size s = Some M -> within r s ->
  nelem (resolve r s) <= M
  /\ (forall i, valid (resolve r s) i -> dot i (sl_strides l) < M)
  /\ (forall i j, valid (resolve r s) i -> valid (resolve r s) j -> dot i (sl_strides l) = dot j (sl_strides l) -> i = j)
  /\ sl_buffer_size l = Some M.
Proof.
  intros s l r M H1 H2 Hw. apply from_shape_strides in H1. destruct H1 as (A & B & C).
  pose proof H2 as H2'. rewrite max_size_shape in H2. destruct (ss_to_max_shape s) as [c|] eqn:E; [|discriminate]. injection H2 as <-.
  rewrite (strides_max s c E) in B. injection B as <-. pose proof (max_dominates r s c Hw E) as D.
  split; [now apply nelem_le|]. split.
  { intros i Hi. apply (valid_le _ _ _ D) in Hi. rewrite dot_compute_strides by now apply valid_length. now apply ravel_lt. }
  split.
  { intros i j Hi Hj. apply (valid_le _ _ _ D) in Hi. apply (valid_le _ _ _ D) in Hj.
    rewrite !dot_compute_strides by now apply valid_length. now apply ravel_inj. }
  unfold sl_buffer_size. rewrite A, H2', C. reflexivity.
Qed.
Print Assumptions C45_bounds.
(** If only the first dimension is dynamic (as for nonzero, unique, compress), the
    strides are those of every resolution. *)
Theorem C45_first_dynamic : forall d c l r, sl_from_shape (d :: map Concrete c) = Some l ->
  sl_strides l = compute_strides (resolve r (d :: map Concrete c)).
Proof.
  intros d c l r H. assert (B : bounded (d :: map Concrete c)) by (apply from_shape_iff; eauto).
  apply max_shape_bounded in B. destruct B as [m Hm]. apply from_shape_strides in H. destruct H as (_ & B & _).
  rewrite (strides_max _ m Hm) in B. injection B as <-.
  unfold ss_to_max_shape in Hm. cbn in Hm. destruct (allocation_size d) as [a|]; [|discriminate].
  change (collect (map allocation_size (map Concrete c))) with (ss_to_max_shape (map Concrete c)) in Hm.
  rewrite max_shape_concrete in Hm. injection Hm as <-.
  cbn [resolve map]. rewrite !compute_strides_cons.
  replace (map _ (map Concrete c)) with c; [reflexivity|]. rewrite map_map. symmetry. apply map_id.
Qed.
Print Assumptions C45_first_dynamic.
Example C45_example :
  let s := [Dynamic 7 (Some 10); Concrete 3] in
  option_map sl_strides (sl_from_shape s) = Some [3; 1] /\ ss_max_size s = Some 30
  /\ within (fun _ => 4) s /\ resolve (fun _ => 4) s = [4; 3]
  /\ match sl_from_shape s with
     | Some l => option_map sl_to_concrete (with_dims l [(0, Concrete 4)]) = Some (Some (from_shape [4; 3]))
     | None => False
     end.
Proof. cbn. repeat split; auto. repeat constructor. Qed.

(* ================ C46 ================ *)

(** [t]: the thread; resolutions of other threads have no effect. *)
Theorem C46_lookup : forall h t i,
  snd (dstep (drun dinit h) t (DGet i)) = RVal (last_resolve (rev h) t i).
Proof. intros. cbn. now rewrite drun_map. Qed.
Print Assumptions C46_lookup.
(** what the specification says, spelled out *)
Theorem C46_meaning : forall h t i v,
  (forall u o, last_resolve (rev (h ++ [(u, o)])) t i =
     if u =? t then match o with DResolve j w => if (j =? i)%N then Some w else last_resolve (rev h) t i
                    | DClear => None | _ => last_resolve (rev h) t i end
     else last_resolve (rev h) t i)
  /\ (last_resolve (rev h) t i = Some v <->
      exists h1 h2, h = h1 ++ (t, DResolve i v) :: h2
        /\ Forall (fun e => fst e = t -> match snd e with DResolve j _ => j <> i | DClear => False | _ => True end) h2).
Proof.
  intros h t i v. split; [intros u o; rewrite rev_app_distr; reflexivity|].
  induction h as [|[u o] h IH] using rev_ind.
  - split; [discriminate|]. intros (h1 & h2 & H & _). destruct h1; discriminate.
  - rewrite rev_app_distr. cbn [rev app last_resolve].
    assert (Skip : (u = t -> match o with DResolve j _ => j <> i | DClear => False | _ => True end) ->
      (last_resolve (rev h) t i = Some v <->
       exists h1 h2, h ++ [(u, o)] = h1 ++ (t, DResolve i v) :: h2
        /\ Forall (fun e => fst e = t -> match snd e with DResolve j _ => j <> i | DClear => False | _ => True end) h2)).
    { intro Hk. rewrite IH. split.
      - intros (h1 & h2 & -> & F). exists h1, (h2 ++ [(u, o)]). rewrite <- app_assoc. split; [reflexivity|].
        apply Forall_app. split; [exact F|]. constructor; [exact Hk|constructor].
      - intros (h1 & h2 & E & F). destruct h2 as [|e h2] using rev_ind.
        + apply app_inj_tail in E. destruct E as [_ E]. injection E as -> ->. specialize (Hk eq_refl). cbn in Hk. congruence.
        + rewrite app_comm_cons, app_assoc in E. apply app_inj_tail in E. destruct E as [-> E].
          apply Forall_app in F. exists h1, h2. split; [reflexivity|apply F]. }
    destruct (Nat.eqb_spec u t) as [->|N].
    2:{ apply Skip. congruence. }
    destruct o as [|j w| |j].
    + apply Skip. auto.
    + destruct (N.eqb_spec j i) as [->|Nj].
      * split.
        -- intro K. injection K as ->. exists h, []. split; [reflexivity|constructor].
        -- intros (h1 & h2 & E & F). destruct h2 as [|e h2] using rev_ind.
           ++ apply app_inj_tail in E. destruct E as [_ E]. injection E as ->. reflexivity.
           ++ rewrite app_comm_cons, app_assoc in E. apply app_inj_tail in E. destruct E as [_ <-].
              apply Forall_app in F. destruct F as [_ F]. inversion F as [|? ? F1 _]; subst. specialize (F1 eq_refl). cbn in F1. congruence.
      * apply Skip. auto.
    + split; [discriminate|]. intros (h1 & h2 & E & F). destruct h2 as [|e h2] using rev_ind.
      * apply app_inj_tail in E. destruct E as [_ E]. discriminate.
      * rewrite app_comm_cons, app_assoc in E. apply app_inj_tail in E. destruct E as [_ <-].
        apply Forall_app in F. destruct F as [_ F]. inversion F as [|? ? F1 _]; subst. destruct (F1 eq_refl).
    + apply Skip. auto.
Qed.
Print Assumptions C46_meaning.
(** the [k]-th id created is [k] modulo 2^32, whatever the threads do *)
Theorem C46_ids : forall h t,
  snd (dstep (drun dinit h) t DNew) = RId (N.of_nat (news h) mod id_wrap).
Proof. intros. cbn. now rewrite drun_next. Qed.
Print Assumptions C46_ids.
(** so ids are distinct as long as fewer than 2^32 were created in between *)
Theorem C46_fresh : forall h t h' t',
  (0 < N.of_nat (news (h ++ (t, DNew) :: h')) - N.of_nat (news h) < id_wrap)%N ->
  snd (dstep (drun dinit h) t DNew) <> snd (dstep (drun dinit (h ++ (t, DNew) :: h')) t' DNew).
Proof.
  intros h t h' t' H. rewrite !C46_ids. intro K. injection K as K.
  assert (W : id_wrap <> 0%N) by discriminate.
  pose proof (N.div_mod (N.of_nat (news h)) id_wrap W) as D1.
  pose proof (N.div_mod (N.of_nat (news (h ++ (t, DNew) :: h'))) id_wrap W) as D2.
  rewrite <- K in D2. set (a := N.of_nat (news h)) in *. set (b := N.of_nat (news (h ++ (t, DNew) :: h'))) in *.
  clearbody a b.
  assert (E : (b - a = id_wrap * (b / id_wrap - a / id_wrap))%N) by (rewrite N.mul_sub_distr_l; lia).
  rewrite E in H. clear - H. revert H. generalize (b / id_wrap - a / id_wrap)%N as d. generalize id_wrap as w. intros w d H.
  destruct d as [|d]; [lia|]. assert (L : (1 <= N.pos d)%N) by lia. apply (N.mul_le_mono_l _ _ w) in L. lia.
Qed.
Print Assumptions C46_fresh.
Example C46_example :
  let h := [(0, DNew); (1, DNew); (0, DResolve 0 4); (1, DResolve 0 9); (0, DResolve 0 5); (0, DResolve 1 6)] in
  last_resolve (rev h) 0 0 = Some 5 /\ last_resolve (rev h) 1 0 = Some 9 /\ last_resolve (rev (h ++ [(1, DClear)])) 1 0 = None
  /\ news h = 2.
Proof. cbn. repeat split. Qed.
