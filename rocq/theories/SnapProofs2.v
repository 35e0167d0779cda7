(** What a recorded board looks like. *)
From Coq Require Import List Arith Bool Lia Sorted.
From Verif Require Import Base SnapModel SnapSpec SnapProofs.
Import ListNotations.

Section Board.
  Context {O V : Type}.
  Variable f : O -> list V -> nat -> V.
  Variable dflt : V.
  Variable sg rho : nat -> V.

  Record board_ok (s : sess O V) (val : nat -> V) : Prop := {
    ok_inputs : Forall (fun i => i < ids s /\ val i = sg i) (b_inputs s);
    ok_targets : Forall (fun i => i < ids s) (b_targets s);
    ok_sorted : StronglySorted lt (map n_out (b_ops s));
    ok_ops : Forall (fun n => n_out n < ids s /\ Forall (fun i => i < n_out n) (n_ins n) /\
               val (n_out n) = f (n_op n) (map val (n_ins n)) (which n)) (b_ops s);
    ok_fresh : forall i, In i (b_inputs s) -> ~ In i (map n_out (b_ops s));
    ok_content : forall i v, content s i = Some v -> i < ids s /\ v = val i }.

  Lemma sorted_app : forall (l1 l2 : list nat), StronglySorted lt l1 -> StronglySorted lt l2 ->
    (forall x y, In x l1 -> In y l2 -> x < y) -> StronglySorted lt (l1 ++ l2).
  Proof.
    induction l1 as [|x l1 IH]; intros l2 H1 H2 H; simpl; auto. inversion H1; subst. constructor.
    - apply IH; auto. intros a b Ha Hb. apply H; auto. now right.
    - apply Forall_app. split; auto. apply Forall_forall. intros y Hy. apply H; auto. now left.
  Qed.

  Lemma extend : forall s s' val val' nin nt nops, board_ok s val -> ids s <= ids s' ->
    (forall i, i < ids s -> val' i = val i) ->
    b_inputs s' = b_inputs s ++ nin -> Forall (fun i => ids s <= i < ids s' /\ val' i = sg i) nin ->
    b_targets s' = b_targets s ++ nt -> Forall (fun i => i < ids s') nt ->
    b_ops s' = b_ops s ++ nops -> StronglySorted lt (map n_out nops) ->
    Forall (fun n => ids s <= n_out n < ids s' /\ Forall (fun i => i < ids s) (n_ins n) /\
             val' (n_out n) = f (n_op n) (map val (n_ins n)) (which n)) nops ->
    nin = [] \/ nops = [] ->
    (forall i v, content s' i = Some v -> content s i = Some v \/ (ids s <= i < ids s' /\ v = val' i)) ->
    board_ok s' val'.
  Proof.
    intros s s' val val' nin nt nops [A B C D E G] Hid Hv Hi Fi Ht Ft Ho So Fo Hx Hc.
    assert (Em : forall l, Forall (fun i => i < ids s) l -> map val' l = map val l).
    { intros l Hl. apply map_ext_in. intros i Hin. apply Hv. rewrite Forall_forall in Hl. auto. }
    rewrite Forall_forall in *. constructor.
    - rewrite Hi. apply Forall_app. rewrite !Forall_forall. split; intros i Hin.
      + destruct (A i Hin). rewrite Hv by auto. split; [lia|auto].
      + destruct (Fi i Hin) as [? ?]. split; [lia|auto].
    - rewrite Ht. apply Forall_app. rewrite !Forall_forall. split; intros i Hin.
      + specialize (B i Hin). lia.
      + now apply Ft.
    - rewrite Ho, map_app. apply sorted_app; auto. intros x y Hxx Hyy.
      apply in_map_iff in Hxx, Hyy. destruct Hxx as (n & <- & Hn), Hyy as (m & <- & Hm).
      destruct (D n Hn), (Fo m Hm). lia.
    - rewrite Ho. apply Forall_app. rewrite !Forall_forall. split; intros n Hn.
      + destruct (D n Hn) as (D1 & D2 & D3). split; [lia|]. split; auto.
        rewrite Hv, D3 by auto. rewrite (Em (n_ins n)); auto.
        eapply Forall_impl; [|exact D2]. simpl. intros; lia.
      + destruct (Fo n Hn) as (D1 & D2 & D3). split; [lia|]. split.
        * eapply Forall_impl; [|exact D2]. simpl. intros; lia.
        * rewrite D3, (Em (n_ins n)); auto.
    - intros i Hin Hout. rewrite Hi in Hin. rewrite Ho, map_app in Hout. apply in_app_or in Hin, Hout.
      destruct Hin as [Hin|Hin], Hout as [Hout|Hout].
      + now apply (E i).
      + destruct (A i Hin). apply in_map_iff in Hout. destruct Hout as (m & <- & Hm). destruct (Fo m Hm). lia.
      + destruct (Fi i Hin). apply in_map_iff in Hout. destruct Hout as (m & <- & Hm). destruct (D m Hm). lia.
      + destruct Hx as [->| ->]; contradiction.
    - intros i v Hcv. destruct (Hc i v Hcv) as [H|H]; [|intuition lia].
      destruct (G i v H) as [G1 G2]. rewrite Hv by auto. split; [lia|auto].
  Qed.

  Lemma put_all_below : forall n vs (val : nat -> V) i, i < n -> put_all n vs val i = val i.
  Proof. intros n vs val i H. unfold put_all. apply Nat.ltb_lt in H. now rewrite H. Qed.
  Lemma put_all_at : forall n vs (val : nat -> V) j, j < length vs -> put_all n vs val (n + j) = nth j vs dflt.
  Proof.
    intros n vs val j H. unfold put_all. destruct (Nat.ltb_spec (n + j) n); [lia|].
    replace (n + j - n) with j by lia. apply nth_indep. auto.
  Qed.

  Lemma fold_record : forall ns (s : sess O V), let s' := fold_left record ns s in
    active s' = active s /\ ids s' = ids s /\ content s' = content s /\ b_inputs s' = b_inputs s /\
    b_targets s' = b_targets s /\ b_ops s' = b_ops s ++ ns.
  Proof.
    induction ns as [|n r IH]; intro s; simpl.
    - rewrite app_nil_r. repeat split.
    - destruct (IH (record s n)) as (A & B & C & D & E & G). simpl in *. rewrite A, B, C, D, E, G, <- app_assoc. repeat split.
  Qed.

  Lemma fold_store : forall vs (s : sess O V), let s' := fold_left store vs s in
    active s' = active s /\ ids s' = ids s + length vs /\ b_inputs s' = b_inputs s /\
    b_targets s' = b_targets s /\ b_ops s' = b_ops s /\
    forall i v, content s' i = Some v -> content s i = Some v \/ (ids s <= i < ids s' /\ v = nth (i - ids s) vs dflt).
  Proof.
    induction vs as [|x r IH]; intro s; simpl.
    - repeat split; auto; lia.
    - destruct (IH (store s x)) as (A & B & C & D & E & G). simpl in *. rewrite A, B, C, D, E.
      split; auto. split; [lia|]. do 3 (split; auto). intros i v H. destruct (G i v H) as [H'|[H1 H2]].
      + unfold cset in H'. destruct (Nat.eqb_spec i (ids s)) as [->|]; [|now left].
        right. split; [lia|]. rewrite Nat.sub_diag. congruence.
      + right. split; [lia|]. replace (i - ids s) with (S (i - S (ids s))) by lia. auto.
  Qed.

  Lemma which_plain : forall o ins n, which (@mkNode O o ins n []) = 0.
  Proof. reflexivity. Qed.

  (** operations executed at once *)
  Lemma at_once : forall s val vs, board_ok s val ->
    board_ok (fold_left store vs s) (put_all (ids s) vs val).
  Proof.
    intros s val vs H. destruct (fold_store vs s) as (A & B & C & D & E & G).
    apply (extend s _ val _ [] [] []); rewrite ?app_nil_r; auto; try lia; try (now constructor).
    - intros i Hi. now apply put_all_below.
    - intros i v Hi. destruct (G i v Hi) as [|[H1 H2]]; auto. right. split; auto. rewrite H2.
      rewrite <- (put_all_at (ids s) vs val) by lia. f_equal. lia.
  Qed.
  (** operations recorded *)
  Lemma recorded : forall s val vs ns, board_ok s val -> StronglySorted lt (map n_out ns) ->
    Forall (fun n => ids s <= n_out n < ids s + length vs /\ Forall (fun i => i < ids s) (n_ins n) /\
      nth (n_out n - ids s) vs dflt = f (n_op n) (map val (n_ins n)) (which n)) ns ->
    board_ok (fold_left record ns (fresh s (length vs))) (put_all (ids s) vs val).
  Proof.
    intros s val vs ns H So Fo. destruct (fold_record ns (fresh s (length vs))) as (A & B & C & D & E & G).
    simpl in *. apply (extend s _ val _ [] [] ns); rewrite ?app_nil_r; auto; try lia; try (now constructor).
    - intros i Hi. now apply put_all_below.
    - eapply Forall_impl; [|exact Fo]. simpl. intros n (H1 & H2 & H3). rewrite B. split; [lia|]. split; auto.
      rewrite <- H3, <- (put_all_at (ids s) vs val) by lia. f_equal. lia.
    - intros i v Hi. left. congruence.
  Qed.

  Lemma vals_val : forall s val ins, board_ok s val -> Forall (fun i => content s i <> None) ins ->
    vals dflt s ins = map val ins.
  Proof.
    intros s val ins H Hc. unfold vals. apply map_ext_in. intros i Hi. rewrite Forall_forall in Hc.
    specialize (Hc i Hi). destruct (content s i) as [v|] eqn:E; [|congruence]. now apply (ok_content _ _ H).
  Qed.

  Lemma sstep_ok : forall s val e, board_ok s val -> slegal s e ->
    let '(n, val') := eager_step f sg rho (ids s, val) e in
    ids (sstep f dflt s e) = n /\ board_ok (sstep f dflt s e) val'.
  Proof.
    intros s val e H L. destruct e as [| | |v| |o ins|os ins|o ins|o ins|i|i]; simpl.
    - split; auto. destruct H. constructor; auto.
    - split; auto. destruct H. constructor; auto.
    - split; auto. apply (extend s _ val _ [ids s] [] []); simpl; rewrite ?app_nil_r; auto; try lia; try (now constructor).
      + intros i Hi. now apply put_all_below.
      + constructor; [|constructor]. split; [lia|]. pose proof (put_all_at (ids s) [sg (ids s)] val 0) as P. rewrite Nat.add_0_r in P. apply P. simpl. lia.
    - split; [lia|]. apply (at_once s val [v] H).
    - split; auto. apply (extend s _ val _ [] [] []); simpl; rewrite ?app_nil_r; auto; try lia; try (now constructor).
      intros i Hi. now apply put_all_below.
    - destruct L as [L1 L2]. destruct (active s) eqn:Ea.
      + split; [simpl; lia|]. apply (recorded s val [f o (map val ins) 0] [mkNode o ins (ids s) []]); auto.
        * repeat constructor.
        * constructor; [|constructor]. simpl. rewrite which_plain. split; [lia|]. split; auto. now rewrite Nat.sub_diag.
      + rewrite (vals_val s val ins H (L2 eq_refl)). split; [simpl; lia|]. apply (at_once s val [f o (map val ins) 0] H).
    - destruct L as [L1 L2]. rewrite map_length. destruct (active s) eqn:Ea.
      + destruct (fold_record (split_nodes (ids s) os ins) (fresh s (length os))) as (_ & B & _). simpl in B.
        split; auto.
        rewrite <- (map_length (fun o => f o (map val ins) 0) os) at 1.
        assert (Sn : forall os k, map n_out (map (fun '(j, o) => @mkNode O o ins (ids s + j) []) (combine (seq k (length os)) os))
                       = seq (ids s + k) (length os)).
        { induction os0 as [|o r IH]; intro k; simpl; auto. f_equal. rewrite IH. f_equal. lia. }
        apply recorded; auto.
        * unfold split_nodes. rewrite Sn. generalize (ids s + 0). generalize (length os). clear.
          induction n as [|n IH]; intro k; simpl; constructor; auto. apply Forall_forall. intros x Hx. apply in_seq in Hx. lia.
        * apply Forall_forall. intros n Hn. unfold split_nodes in Hn. apply in_map_iff in Hn.
          destruct Hn as ((j & o) & <- & Hjo). simpl. rewrite map_length.
          assert (Hj : j < length os) by (apply in_combine_l in Hjo; apply in_seq in Hjo; lia).
          split; [lia|]. split; auto. rewrite which_plain. replace (ids s + j - ids s) with j by lia.
          assert (G : forall os k, In (j, o) (combine (seq k (length os)) os) -> nth_error os (j - k) = Some o).
          { clear. induction os as [|x r IH]; intros k Hi; simpl in Hi; [contradiction|]. destruct Hi as [[= -> ->]|Hi].
            - now rewrite Nat.sub_diag.
            - pose proof (in_combine_l _ _ _ _ Hi) as Hs. apply in_seq in Hs.
              replace (j - k) with (S (j - S k)) by lia. simpl. apply IH. auto. }
          specialize (G os 0 Hjo). rewrite Nat.sub_0_r in G.
          apply (map_nth_error (fun o => f o (map val ins) 0)) in G. apply nth_error_nth with (d := dflt) in G. exact G.
      + rewrite (vals_val s val ins H (L2 eq_refl)).
        assert (Ef : forall (os : list O) (s : sess O V), fold_left (fun s' o => store s' (f o (map val ins) 0)) os s =
          fold_left store (map (fun o => f o (map val ins) 0) os) s).
        { induction os0 as [|o r IH]; intro s0; simpl; auto. }
        rewrite Ef. destruct (fold_store (map (fun o => f o (map val ins) 0) os) s) as (_ & B & _).
        rewrite map_length in B. split; auto. now apply at_once.
    - destruct L as [L1 L2]. destruct (active s) eqn:Ea.
      + split; [simpl; lia|].
        apply (recorded s val [f o (map val ins) 0; f o (map val ins) 1]
                 [mkNode o ins (ids s) [S (ids s)]; mkNode o ins (S (ids s)) [S (ids s)]]); auto.
        * repeat constructor.
        * assert (W1 : which (@mkNode O o ins (ids s) [S (ids s)]) = 0).
          { unfold which. cbn [n_out n_params position]. destruct (Nat.eqb_spec (S (ids s)) (ids s)); [lia|auto]. }
          assert (W2 : which (@mkNode O o ins (S (ids s)) [S (ids s)]) = 1).
          { unfold which. cbn [n_out n_params position]. now rewrite Nat.eqb_refl. }
          constructor; [|constructor; [|constructor]]; cbn [n_out n_ins n_op length].
          -- rewrite W1, Nat.sub_diag. split; [lia|]. split; auto.
          -- rewrite W2. replace (S (ids s) - ids s) with 1 by lia. split; [lia|]. split; auto.
      + rewrite (vals_val s val ins H (L2 eq_refl)). split; [simpl; lia|].
        apply (at_once s val [f o (map val ins) 0; f o (map val ins) 1] H).
    - destruct L as [L1 L2]. destruct (active s) eqn:Ea.
      + split; [simpl; lia|].
        apply (recorded s val [f o (map val ins) 0; f o (map val ins) 1; f o (map val ins) 2]
                 [mkNode o ins (ids s) [S (ids s); S (S (ids s))]]); auto.
        * repeat constructor.
        * assert (W1 : which (@mkNode O o ins (ids s) [S (ids s); S (S (ids s))]) = 0).
          { unfold which. cbn [n_out n_params position]. destruct (Nat.eqb_spec (S (ids s)) (ids s)); [lia|].
            destruct (Nat.eqb_spec (S (S (ids s))) (ids s)); [lia|auto]. }
          constructor; [|constructor]; cbn [n_out n_ins n_op length].
          rewrite W1, Nat.sub_diag. split; [lia|]. split; auto.
      + rewrite (vals_val s val ins H (L2 eq_refl)). split; [simpl; lia|].
        apply (at_once s val [f o (map val ins) 0; f o (map val ins) 1; f o (map val ins) 2] H).
    - split; auto. simpl in L. destruct H as [A B C D E G]. constructor; simpl; auto. apply Forall_app. auto.
    - split; auto. destruct H as [A B C D E G]. constructor; simpl; auto.
      intros j v. unfold cset. destruct (j =? i); [discriminate|apply G].
  Qed.

  Lemma start_ok : board_ok sstart (fun _ => dflt).
  Proof. constructor; simpl; try constructor; auto; try discriminate. Qed.

  Lemma srun_ok : forall es, shistory f dflt sstart es ->
    board_ok (srun f dflt es sstart) (eager f dflt sg rho es).
  Proof.
    intros es H. unfold eager, srun.
    assert (G : forall es s val, board_ok s val -> shistory f dflt s es ->
      board_ok (fold_left (sstep f dflt) es s) (snd (fold_left (eager_step f sg rho) es (ids s, val)))).
    { clear es H. induction es as [|e r IH]; intros s val Hb H; cbn [fold_left]; auto. destruct H as [Hl H].
      pose proof (sstep_ok s val e Hb Hl) as Hs. destruct (eager_step f sg rho (ids s, val) e) as [n val'] eqn:E.
      destruct Hs as [<- Hs]. apply IH; auto. }
    apply (G es sstart (fun _ => dflt)); auto. apply start_ok.
  Qed.
End Board.
