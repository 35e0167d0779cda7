From Coq Require Import List Arith Bool Lia Sorted Permutation.
From Verif Require Import Base IndexSpec LayoutModel ViewSpec KernelModel KernelProofs TensorModel TensorSpec
  EinsumModel EinsumSpec EinsumProofs.
Import ListNotations.

(** ** What an accepted equation satisfies *)
Lemma size_of_app : forall m k n c x, size_of m c = Some x -> size_of (m ++ [(k, n)]) c = Some x.
Proof.
  induction m as [|[a b] m IH]; intros k n c x H; [discriminate|]. simpl in *. destruct (a =? c); auto.
Qed.
Lemma size_of_new : forall m c n, size_of m c = None -> size_of (m ++ [(c, n)]) c = Some n.
Proof.
  induction m as [|[a b] m IH]; intros c n H; simpl in *.
  - now rewrite Nat.eqb_refl.
  - destruct (a =? c); [discriminate|auto].
Qed.

Lemma add_sizes_inv : forall s d m m', add_sizes s d m = Ok m' -> length s = length d ->
  (forall c n, size_of m c = Some n -> size_of m' c = Some n) /\ map (size_of m') s = map Some d.
Proof.
  induction s as [|c s IH]; intros [|x d] m m' H L; try discriminate.
  - injection H as <-. auto.
  - cbn [add_sizes] in H. destruct (size_of m c) as [n|] eqn:E.
    + destruct (n =? x) eqn:F; [|discriminate]. apply Nat.eqb_eq in F. subst.
      apply IH in H as [M S]; [|simpl in L; lia]. split; auto. cbn [map]. f_equal; auto.
    + apply IH in H as [M S]; [|simpl in L; lia]. split.
      * intros c' n' H'. apply M. now apply size_of_app.
      * cbn [map]. f_equal; auto. apply M. now apply size_of_new.
Qed.

Lemma all_sizes_inv : forall subs shapes m m', all_sizes subs shapes m = Ok m' ->
  length subs = length shapes ->
  forallb (fun q : list nat * list nat => length (fst q) =? length (snd q)) (combine subs shapes) = true ->
  (forall c n, size_of m c = Some n -> size_of m' c = Some n) /\
  map (map (size_of m')) subs = map (map Some) shapes.
Proof.
  induction subs as [|s subs IH]; intros [|d shapes] m m' H L F; try discriminate.
  - injection H as <-. auto.
  - cbn [all_sizes] in H. cbn [combine forallb fst snd] in F. apply andb_true_iff in F as [F1 F2].
    apply Nat.eqb_eq in F1. destruct (add_sizes s d m) as [m1|e|] eqn:E; try discriminate. cbn [bind] in H.
    apply add_sizes_inv in E as [M1 S1]; auto. apply IH in H as [M2 S2]; auto. split; auto.
    cbn [map]. f_equal; auto. rewrite <- S1. apply map_ext_in. intros c I.
    assert (exists n, size_of m1 c = Some n) as [n E].
    { clear - S1 I. revert d S1. induction s as [|y s IH]; intros [|x d] S1; try discriminate; [contradiction|].
      cbn [map] in S1. injection S1 as X Y. destruct I as [->|I]; eauto. }
    rewrite E. now apply M2.
Qed.

Lemma map_some : forall (m : sizes) s d, map (size_of m) s = map Some d ->
  map (fun c => match size_of m c with Some n => n | None => 0 end) s = d.
Proof.
  intros m. induction s as [|c s IH]; intros [|x d] H; try discriminate; auto.
  cbn [map] in *. injection H as X Y. rewrite X. f_equal. auto.
Qed.

Lemma size_of_keys : forall m c n, size_of m c = Some n -> In c (map fst m).
Proof. intros m c n H. apply size_of_in in H. now apply (in_map fst) in H. Qed.

Lemma add_sizes_keys : forall s d m m' c, add_sizes s d m = Ok m' -> In c (map fst m') ->
  In c (map fst m) \/ In c s.
Proof.
  induction s as [|x s IH]; intros [|y d] m m' c H I; cbn [add_sizes] in H;
    try (injection H as <-; now left).
  destruct (size_of m x) eqn:E.
  - destruct (n =? y); [|discriminate]. apply IH with (c := c) in H; auto. destruct H; auto. right. now right.
  - apply IH with (c := c) in H; auto. destruct H as [H|H].
    + rewrite map_app in H. apply in_app_or in H as [H|[<-|[]]]; auto. right. now left.
    + right. now right.
Qed.
Lemma all_sizes_keys : forall subs shapes m m' c, all_sizes subs shapes m = Ok m' -> In c (map fst m') ->
  In c (map fst m) \/ In c (concat subs).
Proof.
  induction subs as [|s subs IH]; intros [|d shapes] m m' c H I; cbn [all_sizes] in H;
    try (injection H as <-; now left).
  destruct (add_sizes s d m) as [m1|e|] eqn:E; try discriminate. cbn [bind] in H.
  apply IH with (c := c) in H; auto. cbn [concat]. destruct H as [H|H].
  - apply add_sizes_keys with (c := c) in E; auto. destruct E; auto. right. apply in_or_app. now left.
  - right. apply in_or_app. now right.
Qed.

Lemma parse_accepts : forall eq shapes p, parse eq shapes = Ok p ->
  map (map (psize p)) (p_subs p) = shapes /\ incl (p_out p) (concat (p_subs p)).
Proof.
  intros eq shapes p H. unfold parse in H.
  set (w := filter _ eq) in H.
  destruct (match split_arrow [] w with [i] => Ok (i, None) | [i; o] => Ok (i, Some o) | _ => Err EInternal end)
    as [io|e|] eqn:W; try discriminate. cbn [bind] in H.
  set (subs := split_on c_comma [] (fst io)) in H.
  destruct (length subs =? length shapes) eqn:L; [|discriminate]. apply Nat.eqb_eq in L. cbn [negb] in H.
  destruct (forallb (fun q : list nat * list nat => length (fst q) =? length (snd q)) (combine subs shapes)) eqn:F; [|discriminate]. cbn [negb] in H.
  destruct (all_sizes subs shapes []) as [m|e|] eqn:M; try discriminate. cbn [bind] in H.
  set (out := match snd io with Some o => o | None => _ end) in H.
  destruct (forallb (fun c => match size_of m c with Some _ => true | None => false end) out) eqn:O; [|discriminate]. cbn [negb] in H.
  assert (p = mkP subs out (filter (fun c => negb (has c out)) (sort_labels (map fst m))) (sort_labels (map fst m)) m)
    as -> by congruence. clear H. cbn [p_subs p_out].
  pose proof M as M'. apply all_sizes_inv in M as [_ S]; auto. split.
  - unfold psize. cbn [p_sizes]. clear - S. revert shapes S.
    induction subs as [|s subs IH]; intros [|d shapes] S; try discriminate; auto.
    cbn [map] in *. injection S as X Y. f_equal; auto. now apply map_some.
  - intros c I. rewrite forallb_forall in O. apply O in I. destruct (size_of m c) eqn:E; [|discriminate].
    apply size_of_keys in E. apply all_sizes_keys with (c := c) in M'; auto. destruct M' as [[]|]; auto.
Qed.

(** Without an arrow: the labels that occur once, in increasing order. *)
Lemma parse_implicit : forall size subs, subs <> [] -> Forall label (concat subs) ->
  exists p out, parse (join subs) (map (map size) subs) = Ok p /\ parsed_ok size subs out p /\
    StronglySorted lt out /\ forall c, In c out <-> count_occ Nat.eq_dec (concat subs) c = 1.
Proof.
  intros size subs N L. rewrite Forall_forall in L. unfold parse. rewrite filter_all.
  2:{ intros c H. apply negb_true_iff, Nat.eqb_neq. unfold c_space.
      apply in_join in H as [->|H]; [lia|]. apply L in H. exact (proj1 H). }
  rewrite (split_arrow_word (length (join subs))); auto.
  2:{ intro H. apply in_join in H as [H|H]; [discriminate|]. apply L in H. now destruct H as (_ & _ & H). }
  cbn [rev app bind fst snd]. unfold c_comma. rewrite split_on_join; auto.
  2:{ apply Forall_forall. intros s H K. destruct (L 44) as (_ & F & _); [|congruence].
      apply in_concat. eauto. }
  rewrite map_length, Nat.eqb_refl. cbn [negb]. rewrite shapes_len. cbn [negb].
  destruct (all_sizes_ok size subs [] []) as (m & E & M).
  { constructor; [constructor|intros ? ? []|reflexivity]. }
  rewrite E. cbn [bind]. cbn [app] in M.
  set (out := filter _ (sort_labels (map fst m))).
  assert (forall c, In c out <-> count_occ Nat.eq_dec (concat subs) c = 1) as OC.
  { intro c. unfold out. rewrite filter_In, Nat.eqb_eq. split; [tauto|]. intro H. split; auto.
    apply Permutation_in with (l := map fst m); [apply sort_labels_perm|].
    apply (so_dom _ _ _ M). apply (count_occ_In Nat.eq_dec). lia. }
  assert (incl out (concat subs)) as I.
  { intros c H. apply OC in H. apply (count_occ_In Nat.eq_dec). lia. }
  destruct (parse_core size subs m out M I) as [F P]. rewrite F. cbn [negb].
  eexists. exists out. split; [reflexivity|]. split; auto. split; auto.
  unfold out. apply sorted_filter. apply sort_labels_lt. apply (so_keys _ _ _ M).
Qed.

(** ** The call as written passes no layout of the first operand *)
Section OneOperand.
  Context {A B : Type}.
  Variables (up : A -> B) (down : B -> A) (zero one : B) (add mul : B -> B -> B).

  Lemma contract_ins : forall (ins ins' : list (list A)) rcon cs iv acc,
    contract up one add mul [] ins rcon cs iv acc = contract up one add mul [] ins' rcon cs iv acc.
  Proof.
    induction cs as [|k cs IH]; intros iv acc; auto. cbn [contract product obind].
    destruct (decode rcon k iv); cbn [obind]; auto.
  Qed.

  Lemma seq_for_from_ext : forall n s (g h : nat -> option A) buf, (forall k, g k = h k) ->
    seq_for_from s n g buf = seq_for_from s n h buf.
  Proof.
    induction n as [|n IH]; intros s g h buf E; auto. cbn [seq_for_from]. rewrite E.
    destruct (h s); cbn [obind]; auto. destruct (c_store buf s a); cbn [obind]; auto.
  Qed.

  Lemma einsum_kernel_blind : forall p (ins ins' : list (list A)) buf,
    einsum_kernel up down zero one add mul ins buf (einsum_metadata p []) =
    einsum_kernel up down zero one add mul ins' buf (einsum_metadata p []).
  Proof.
    intros. unfold einsum_kernel. destruct (read_n 5 (einsum_metadata p [])) as [[h md]|] eqn:E; auto.
    assert (nth 1 h 0 = 0) as Z.
    { unfold read_n, einsum_metadata in E. cbn in E. injection E as <- _. reflexivity. }
    cbn [obind]. rewrite Z. destruct (negb _); auto.
    destruct (read_n (nth 4 h 0) md) as [[a md1]|]; auto. cbn [obind read_sections].
    destruct (read_n (nth 3 h 0) md1) as [[b md2]|]; auto. cbn [obind].
    destruct (read_n (nth 2 h 0) md2) as [[c md3]|]; auto. cbn [obind].
    destruct (read_n (nth 4 h 0) md3) as [[d md4]|]; auto. cbn [obind].
    destruct (negb _); auto. unfold seq_for. apply seq_for_from_ext. intro k.
    destruct (decode _ k _); auto. cbn [obind]. now rewrite (contract_ins ins ins').
  Qed.

  Lemma t_einsum_blind : forall z eq (t t' : tensor A), tshape t = tshape t' ->
    t_einsum up down zero one add mul z eq [t] = t_einsum up down zero one add mul z eq [t'].
  Proof.
    intros z eq t t' E. unfold t_einsum. cbn [length Nat.eqb Nat.ltb Nat.leb orb map tl].
    unfold tshape in E. rewrite E. destruct (parse eq [lshape (tlay t')]); auto. cbn [bind].
    now rewrite (einsum_kernel_blind _ [tstore t] [tstore t']).
  Qed.
End OneOperand.
