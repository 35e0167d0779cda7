From Coq Require Import List Arith Bool Lia Sorted Permutation.
From Verif Require Import Base IndexSpec LayoutModel ViewSpec KernelModel KernelProofs TensorModel TensorSpec
  EinsumModel EinsumSpec EinsumProofs.
Import ListNotations.

Lemma read_n_app : forall n a b, length a = n -> read_n n (a ++ b) = Some (a, b).
Proof.
  intros n a b <-. unfold read_n. rewrite app_length.
  replace (length a <=? length a + length b) with true by (symmetry; apply Nat.leb_le; lia).
  rewrite firstn_app, skipn_app, Nat.sub_diag, firstn_all, skipn_all. cbn. now rewrite app_nil_r.
Qed.

(** What the kernel should find for an operand. *)
Definition section_of (p : parsed) (s : list nat) (l : layout) : section :=
  mkSec (lstrides l) (loffset l) (map (pid p) s).
Fixpoint sections_of (p : parsed) (subs : list (list nat)) (ls : list layout) : list section :=
  match subs, ls with
  | s :: subs', l :: ls' => section_of p s l :: sections_of p subs' ls'
  | _, _ => []
  end.

Lemma read_section_app : forall p s l rest, wf_layout l -> length s = length (lshape l) ->
  length (lshape l) <= 16 ->
  read_section (length (lshape l) :: lshape l ++ lstrides l ++ [loffset l] ++ map (pid p) s ++ rest) =
  Some (section_of p s l, rest).
Proof.
  intros p s l rest W L B. unfold read_section.
  change (length (lshape l) :: ?x) with ([length (lshape l)] ++ x).
  rewrite (read_n_app 1 [length (lshape l)]) by reflexivity. cbn [obind hd].
  replace (length (lshape l) <=? 16) with true by (symmetry; now apply Nat.leb_le). cbn [negb].
  rewrite (read_n_app _ (lshape l)) by reflexivity. cbn [obind].
  rewrite (read_n_app _ (lstrides l)) by (unfold wf_layout in W; congruence). cbn [obind].
  rewrite (read_n_app 1 [loffset l]) by reflexivity. cbn [obind hd].
  rewrite (read_n_app _ (map (pid p) s)) by (now rewrite map_length). reflexivity.
Qed.

Lemma skipn_nth : forall A i (l : list A) x r d, skipn i l = x :: r -> nth i l d = x /\ skipn (S i) l = r.
Proof.
  intros A. induction i as [|i IH]; intros [|y l] x r d H; try discriminate.
  - simpl in H. injection H as -> ->. split; reflexivity.
  - simpl in H. apply (IH l x r d) in H. exact H.
Qed.

Lemma read_sections_app : forall p ls subs i rest,
  skipn i (p_subs p) = subs ->
  Forall2 (fun s l => wf_layout l /\ length s = length (lshape l) /\ length (lshape l) <= 16) subs ls ->
  read_sections (length ls) (input_sections p i ls ++ rest) = Some (sections_of p subs ls, rest).
Proof.
  intros p. induction ls as [|l ls IH]; intros subs i rest E F; inversion F as [|s ? subs' ? F1 F2]; subst.
  - reflexivity.
  - symmetry in H. destruct (skipn_nth _ _ _ _ _ [] H) as [N K].
    cbn [length input_sections read_sections sections_of]. rewrite N.
    destruct F1 as (W & L & B).
    pose proof (read_section_app p s l (input_sections p (S i) ls ++ rest) W L B) as R.
    repeat rewrite app_assoc in R. repeat rewrite app_assoc. cbn [app] in R |- *.
    repeat rewrite app_assoc in R. repeat rewrite app_assoc.
    rewrite R. cbn [obind]. rewrite (IH subs' (S i)) by auto. reflexivity.
Qed.

Lemma mapO_of_map : forall X Y Z (f : Y -> option Z) (g : X -> Y) l, mapO f (map g l) = mapO (fun x => f (g x)) l.
Proof. intros. unfold mapO. now rewrite map_map. Qed.

Section K.
  Context {A B : Type}.
  Variables (up : A -> B) (down : B -> A) (zero one : B) (add mul : B -> B -> B).
  Notation term := (term up mul).
  Notation product := (product up mul).
  Notation contract := (contract up one add mul).

  Lemma product_term : forall p rho iv ts subs acc, length subs = length ts ->
    (forall c, In c (concat subs) -> pid p c < 16 /\ iv (pid p c) = rho c) ->
    product (sections_of p subs (map tlay ts)) (map tstore ts) iv acc = term subs ts rho acc.
  Proof.
    intros p rho iv. induction ts as [|t ts IH]; intros [|s subs] acc L H; try discriminate; [reflexivity|].
    cbn [map sections_of EinsumModel.product EinsumSpec.term section_of sec_ids sec_offset sec_strides].
    assert (forall c, In c s -> pid p c < 16 /\ iv (pid p c) = rho c) as H1.
    { intros. apply H. cbn [concat]. apply in_or_app. now left. }
    replace (forallb _ (map (pid p) s)) with true.
    2:{ symmetry. apply forallb_forall. intros x I. apply in_map_iff in I as (c & <- & I).
        apply Nat.ltb_lt. now apply H1. }
    cbn [negb]. rewrite map_map. rewrite (map_ext_in _ rho) by (intros c I; now apply H1).
    unfold elem, addr. destruct (nth_error (tstore t) _); cbn [obind]; auto.
    apply IH; [simpl in L; lia|]. intros. apply H. cbn [concat]. apply in_or_app. now right.
  Qed.

  Lemma contract_total : forall p subs ts out con csz o cs iv acc,
    length subs = length ts ->
    (forall c, In c out -> In c (p_all p)) -> (forall c, In c con -> In c (p_all p)) ->
    (forall c, In c con -> ~ In c out) ->
    (forall c, In c (concat subs) -> In c out \/ In c con) ->
    length (p_all p) <= 16 -> length con = length csz -> length out = length o ->
    (forall c, In c out -> iv (pid p c) = valuation out o c) ->
    (forall k, In k cs -> k < nelem csz) ->
    contract (sections_of p subs (map tlay ts)) (map tstore ts) (rev (combine (map (pid p) con) csz)) cs iv acc =
    total add (map (fun v => term subs ts (valuation (out ++ con) (o ++ v)) one) (map (unravel csz) cs)) acc.
  Proof.
    intros p subs ts out con csz o. induction cs as [|k cs IH]; intros iv acc L HO HC HD HS B16 LC LO HV HK.
    - reflexivity.
    - cbn [EinsumModel.contract map EinsumSpec.total].
      assert (forall c, In c (p_all p) -> pid p c < 16) as P16.
      { intros c I. apply pos_of_nth in I as [I _]. unfold pid. lia. }
      assert (k < nelem csz) as K by (apply HK; now left).
      rewrite decode_all; auto.
      2:{ now rewrite map_length. }
      2:{ apply Forall_forall. intros x I. apply in_map_iff in I as (c & <- & I). auto. }
      cbn [obind].
      assert (forall c, In c (p_all p) -> assign (map (pid p) con) (unravel csz k) iv (pid p c) =
              if in_dec Nat.eq_dec c con then valuation con (unravel csz k) c else iv (pid p c)) as AV.
      { intros c I. unfold pid. apply assign_val; auto. rewrite unravel_length. auto. }
      rewrite (product_term p (valuation (out ++ con) (o ++ unravel csz k))); auto.
      + destruct (term subs ts _ one) as [q|]; cbn [obind]; auto. apply IH; auto.
        * intros c I. rewrite AV by auto. destruct (in_dec Nat.eq_dec c con) as [J|J]; auto.
          exfalso. now apply (HD c).
        * intros. apply HK. now right.
      + intros c I. assert (In c (p_all p)) as J by (destruct (HS c I); auto). split; auto.
        rewrite AV by auto. rewrite valuation_app by auto.
        destruct (in_dec Nat.eq_dec c con) as [X|X], (in_dec Nat.eq_dec c out) as [Y|Y]; auto.
        * exfalso. now apply (HD c).
        * exfalso. destruct (HS c I); contradiction.
  Qed.

  Lemma einsum_kernel_eq : forall size subs out (ts : list (tensor A)) p buf,
    parsed_ok size subs out p -> sized subs ts size -> Forall good ts ->
    Forall (fun t => length (tshape t) <= 16) ts ->
    length ts <= 4 -> length out + length (p_con p) <= 16 ->
    NoDup out -> incl out (concat subs) -> nelem (map size out) <> 0 -> length buf = nelem (map size out) ->
    einsum_kernel up down zero one add mul (map tstore ts) buf (einsum_metadata p (map tlay ts)) =
    mapO (fun o => match einsum_at up zero one add mul subs out (p_con p) size ts o with
                   | Some s => Some (down s) | None => None end) (all_idx (map size out)).
  Proof.
    intros size subs out ts p buf P S G R N4 N16 ND I NZ LB.
    pose proof (po_con _ _ _ _ P) as [CS CD].
    assert (length (p_all p) <= 16) as NA.
    { assert (incl (p_all p) (out ++ p_con p)) as X.
      { intros c H. apply (po_dom _ _ _ _ P) in H. apply in_or_app.
        destruct (in_dec Nat.eq_dec c out); auto. right. now apply CD. }
      apply NoDup_incl_length in X; [|apply (po_all _ _ _ _ P)]. rewrite app_length in X. lia. }
    assert (length subs = length ts) as LST by (clear - S; induction S; simpl; auto).
    assert (out_shape p = map size out) as OS.
    { unfold out_shape. rewrite (po_out _ _ _ _ P). apply map_ext_in. intros c H.
      apply (po_size _ _ _ _ P). auto. }
    unfold einsum_kernel, einsum_metadata.
    set (h := [_; _; _; _; _]). rewrite (read_n_app 5 h) by reflexivity.
    cbn [obind]. subst h. cbn [nth]. rewrite OS, (po_out _ _ _ _ P), map_length.
    replace (length ts <=? 4) with true by (symmetry; now apply Nat.leb_le).
    replace (length (p_all p) <=? 16) with true by (symmetry; now apply Nat.leb_le).
    replace (length (p_con p) <=? 16) with true by (symmetry; apply Nat.leb_le; lia).
    replace (length out <=? 16) with true by (symmetry; apply Nat.leb_le; lia).
    cbn [andb negb].
    rewrite (read_n_app _ (map size out)) by now rewrite map_length. cbn [obind].
    rewrite <- (map_length tlay ts).
    rewrite (read_sections_app p (map tlay ts) subs 0).
    2:{ cbn. apply (po_subs _ _ _ _ P). }
    2:{ clear - S G R. revert G R. induction S as [|s t subs ts E S IH]; intros G R; [constructor|].
        inversion G as [|? ? G1 G2]; subst. inversion R as [|? ? R1 R2]; subst.
        cbn [map]. constructor; auto. destruct G1 as [W _]. split; auto. split; auto.
        unfold tshape in E. rewrite <- E. now rewrite map_length. }
    cbn [obind].
    rewrite (read_n_app _ (map (pid p) (p_con p))) by now rewrite map_length. cbn [obind].
    rewrite (read_n_app _ (map (psize p) (p_all p))) by now rewrite map_length. cbn [obind].
    rewrite <- (app_nil_r (map (pid p) out)).
    rewrite (read_n_app _ (map (pid p) out)) by now rewrite map_length. cbn [obind].
    assert (forall c, In c (concat subs) -> In c (p_all p)) as IA by (intros; now apply (po_dom _ _ _ _ P)).
    replace (forallb _ (map (pid p) (p_con p))) with true.
    2:{ symmetry. apply forallb_forall. intros x X. apply in_map_iff in X as (c & <- & X).
        apply Nat.ltb_lt. apply pos_of_nth. apply IA. now apply CD. }
    cbn [negb].
    replace (Nat.max (nelem (map size out)) 1) with (nelem (map size out)) by lia.
    rewrite seq_for_spec by auto.
    rewrite all_idx_map_unravel. rewrite mapO_of_map. apply mapO_ext. intros k K. apply in_seq in K.
    assert (forall c, In c (p_all p) -> pid p c < 16) as P16.
    { intros c H. apply pos_of_nth in H as [H _]. unfold pid. lia. }
    rewrite decode_all; try lia.
    2:{ now rewrite !map_length. }
    2:{ apply Forall_forall. intros x X. apply in_map_iff in X as (c & <- & X). auto. }
    cbn [obind].
    assert (map (fun i => nth i (map (psize p) (p_all p)) 0) (map (pid p) (p_con p)) = map size (p_con p)) as CSZ.
    { rewrite map_map. apply map_ext_in. intros c H. apply CD in H as [H _].
      pose proof (IA c H) as J. apply pos_of_nth in J as [J1 J2]. fold (pid p c) in J1, J2.
      rewrite (nth_indep _ 0 (psize p 0)) by now rewrite map_length.
      rewrite map_nth, J2. now apply (po_size _ _ _ _ P). }
    rewrite CSZ.
    rewrite (contract_total p subs ts out (p_con p) (map size (p_con p)) (unravel (map size out) k)); auto.
    - unfold einsum_at. rewrite all_idx_map_unravel. reflexivity.
    - intros c H. apply IA. now apply CD.
    - intros c H. now apply CD.
    - intros c H. destruct (in_dec Nat.eq_dec c out); auto. right. now apply CD.
    - now rewrite map_length.
    - now rewrite unravel_length, map_length.
    - intros c H. unfold pid. rewrite assign_val; auto.
      + destruct (in_dec Nat.eq_dec c out); [auto|contradiction].
      + now rewrite unravel_length, map_length.
    - intros j H. apply in_seq in H. lia.
  Qed.

  (** Every term exists. *)
  Lemma term_some : forall size (rho : nat -> nat) subs ts acc, sized subs ts size -> Forall good ts ->
    (forall c, In c (concat subs) -> rho c < size c) -> exists q, term subs ts rho acc = Some q.
  Proof.
    intros size rho subs ts acc S G. revert acc. induction S as [|s t subs ts E S IH]; intros acc H.
    - eexists. reflexivity.
    - inversion G as [|? ? G1 G2]; subst. cbn [EinsumSpec.term].
      destruct (elem t (map rho s)) as [x|] eqn:X.
      + apply IH; auto. intros. apply H. cbn [concat]. apply in_or_app. now right.
      + exfalso. unfold elem in X. apply nth_error_None in X.
        assert (valid (lshape (tlay t)) (map rho s)) as V.
        { unfold tshape in E. rewrite <- E. assert (forall c, In c s -> rho c < size c) as Y.
          { intros. apply H. cbn [concat]. apply in_or_app. now left. }
          clear - Y. induction s as [|c s IH]; cbn; auto. split; [apply Y; now left|apply IH].
          intros. apply Y. now right. }
        apply (proj2 G1) in V. lia.
  Qed.

  Lemma valuation_lt : forall (size : nat -> nat) ls vs c, valid (map size ls) vs -> In c ls ->
    valuation ls vs c < size c.
  Proof.
    intros size. induction ls as [|l ls IH]; intros [|v vs] c V I; simpl in V; try contradiction.
    cbn [valuation]. destruct (l =? c) eqn:E; [apply Nat.eqb_eq in E; subst; tauto|].
    apply Nat.eqb_neq in E. destruct I as [->|I]; [congruence|]. apply IH; tauto.
  Qed.

  Lemma einsum_at_some : forall size subs out con (ts : list (tensor A)) o, sized subs ts size -> Forall good ts ->
    contracted subs out con -> valid (map size out) o ->
    exists s, einsum_at up zero one add mul subs out con size ts o = Some s.
  Proof.
    intros size subs out con ts o S G [_ C] V. unfold einsum_at.
    assert (forall v, In v (all_idx (map size con)) -> valid (map size con) v) as F by (intros v; apply in_all_idx).
    revert F. generalize zero. induction (all_idx (map size con)) as [|v l IH]; intros z F.
    - eexists. reflexivity.
    - cbn [map EinsumSpec.total].
      destruct (term_some size (valuation (out ++ con) (o ++ v)) subs ts one S G) as [q E].
      + intros c H. apply valuation_lt.
        * rewrite map_app. apply valid_app; [|split; auto; apply F; now left].
          pose proof (valid_length _ _ V). auto.
        * apply in_or_app. destruct (in_dec Nat.eq_dec c out); auto. right. now apply C.
      + rewrite E. apply IH. intros. apply F. now right.
  Qed.

  Lemma einsum_full : forall size subs out (ts : list (tensor A)) z,
    subs <> [] -> Forall label (concat subs) -> sized subs ts size -> Forall good ts ->
    Forall (fun t => length (tshape t) <= 16) ts -> length ts <= 4 ->
    NoDup out -> incl out (concat subs) -> nelem (map size out) <> 0 ->
    exists p con, parse (text subs out) (map tshape ts) = Ok p /\ out_shape p = map size out /\
      contracted subs out con /\
      (length out + length con <= 16 ->
       exists r, einsum_kernel up down zero one add mul (map tstore ts) (repeat z (nelem (map size out)))
                   (einsum_metadata p (map tlay ts)) = Some r /\
         length r = nelem (map size out) /\
         forall o, valid (map size out) o ->
           exists s, einsum_at up zero one add mul subs out con size ts o = Some s /\
             nth_error r (ravel (map size out) o) = Some (down s)).
  Proof.
    intros size subs out ts z N L S G R N4 ND I NZ.
    destruct (parse_ok size subs out N L I) as (p & E & P).
    exists p, (p_con p). split; [|split; [|split]].
    - rewrite <- E. f_equal. clear - S. induction S; simpl; congruence.
    - unfold out_shape. rewrite (po_out _ _ _ _ P). apply map_ext_in. intros c H.
      apply (po_size _ _ _ _ P). auto.
    - apply (po_con _ _ _ _ P).
    - intro N16. rewrite (einsum_kernel_eq size subs out); auto using repeat_length.
      set (f := fun o : list nat => match einsum_at up zero one add mul subs out (p_con p) size ts o with
                   | Some s => Some (down s) | None => None end).
      assert (forall o, valid (map size out) o -> exists s, einsum_at up zero one add mul subs out (p_con p) size ts o
        = Some s /\ f o = Some (down s)) as T.
      { intros o V. destruct (einsum_at_some size subs out (p_con p) ts o S G (po_con _ _ _ _ P) V) as [s Q].
        exists s. split; auto. unfold f. now rewrite Q. }
      destruct (mapO f (all_idx (map size out))) as [r|] eqn:M.
      + exists r. split; auto. split.
        * rewrite (mapO_length _ _ _ _ _ M). apply all_idx_length.
        * intros o V. destruct (T o V) as (s & Q & W). exists s. split; auto. rewrite <- W.
          eapply mapO_nth; eauto. rewrite nth_error_all_idx by now apply ravel_lt. now rewrite unravel_ravel.
      + exfalso. clear - M T. assert (forall o, In o (all_idx (map size out)) -> f o <> None) as F.
        { intros o H. apply in_all_idx in H. destruct (T o H) as (s & _ & ->). discriminate. }
        revert M F. induction (all_idx (map size out)) as [|o l IH]; intros M F; [discriminate|].
        rewrite mapO_cons in M. destruct (f o) eqn:X; [|now apply (F o); [left|]].
        destruct (mapO f l) eqn:Y; [discriminate|]. apply IH; auto. intros; apply F; now right.
  Qed.
End K.
