(** The optimizers compute their recursions element by element. *)
From Coq Require Import List Arith Bool Lia.
From Verif Require Import Base OptimModel OptimSpec.
Import ListNotations.

(** the list of the values of [f] below [n]; the tensors of one parameter *)
Definition tab {A} (n : nat) (f : nat -> A) : list A := map f (seq 0 n).

Lemma tab_ext : forall A n (f g : nat -> A), (forall i, i < n -> f i = g i) -> tab n f = tab n g.
Proof. intros A n f g H. apply map_ext_in. intros i Hi. apply in_seq in Hi. apply H. lia. Qed.
Lemma tab_length : forall A n (f : nat -> A), length (tab n f) = n.
Proof. intros. unfold tab. now rewrite map_length, seq_length. Qed.
Lemma map_tab : forall A B (g : A -> B) n f, map g (tab n f) = tab n (fun i => g (f i)).
Proof. intros. unfold tab. now rewrite map_map. Qed.
Lemma combine_map : forall A B C (f : A -> B) (g : A -> C) l, combine (map f l) (map g l) = map (fun i => (f i, g i)) l.
Proof. induction l; cbn; congruence. Qed.

Section Proofs.
Context {T : Type}.
Variables (zero one : T) (add sub mul div : T -> T -> T) (sqrt : T -> T) (of_nat : nat -> T).
Variable is_zero : T -> bool.

Lemma t2_tab : forall (f : T -> T -> T) n a b, t2 f (tab n a) (tab n b) = Ok (tab n (fun i => f (a i) (b i))).
Proof.
  intros f n a b. unfold t2. rewrite !tab_length, Nat.eqb_refl. f_equal.
  unfold tab. induction (seq 0 n) as [|x l IH]; cbn; congruence.
Qed.
Lemma ts_tab : forall (f : T -> T -> T) n a s, ts f (tab n a) s = tab n (fun i => f (a i) s).
Proof. intros. unfold ts. apply map_tab. Qed.
Lemma square_tab : forall n a, square mul (tab n a) = tab n (fun i => mul (a i) (a i)).
Proof. intros. unfold square. apply map_tab. Qed.
Lemma zeros_tab : forall n (a : nat -> T) g, zeros_like zero (mkP (tab n a) g) = tab n (fun _ => zero).
Proof. intros. unfold zeros_like. cbn. apply map_tab. Qed.
Lemma full_tab : forall n (a : nat -> T) g x, full_like (mkP (tab n a) g) x = tab n (fun _ => x).
Proof. intros. unfold full_like. cbn. apply map_tab. Qed.

(** a training history: the learning rate and all gradients of each step; and its
    part for one element *)
Definition whist := list (T * (nat -> nat -> T)).
Definition elem_hist (h : whist) (i j : nat) : list (T * T) := map (fun s => (fst s, snd s i j)) h.
(** [k] parameters of [n i] elements *)
Variables (k : nat) (n : nat -> nat).
Definition params (X : nat -> nat -> T) (G : nat -> option (list T)) : list param :=
  tab k (fun i => mkP (tab (n i) (X i)) (G i)).
Definition grads (h : whist) : list (T * list (option (list T))) :=
  map (fun s => (fst s, tab k (fun i => Some (tab (n i) (snd s i))))) h.
Definition values (ps : list (@param T)) : list (list T) := map p_val ps.

Lemma give_params : forall X G D, give (params X G) (tab k D) = params X D.
Proof.
  intros. unfold give, params, tab. rewrite combine_map, map_map. reflexivity.
Qed.
Lemma values_params : forall X G, values (params X G) = tab k (fun i => tab (n i) (X i)).
Proof. intros. unfold values, params. rewrite map_tab. reflexivity. Qed.
Lemma params_ext : forall X Y G, (forall i j, i < k -> j < n i -> X i j = Y i j) -> params X G = params Y G.
Proof. intros X Y G H. apply tab_ext. intros i Hi. f_equal. apply tab_ext. intros j Hj. auto. Qed.

(** training step by step, with a state invariant *)
Section Train.
Context {S : Type}.
Variable step : T -> S -> list (@param T) -> S * list (@param T) * outcome unit.
(** [R h s]: the optimizer state after history [h]; [Y h]: the parameters *)
Variable R : whist -> S -> Prop.
Variable Y : whist -> nat -> nat -> T.
Hypothesis Hstep : forall h s lr D, R h s ->
  exists s', step lr s (params (Y h) (fun i => Some (tab (n i) (D i))))
             = (s', params (Y (h ++ [(lr, D)])) (fun i => Some (tab (n i) (D i))), Ok tt)
             /\ R (h ++ [(lr, D)]) s'.
Lemma train_ind : forall h2 h1 s G, R h1 s ->
  exists s' G', train step s (params (Y h1) G) (grads h2) = (s', params (Y (h1 ++ h2)) G', Ok tt) /\ R (h1 ++ h2) s'.
Proof.
  induction h2 as [|[lr D] h2 IH]; intros h1 s G H.
  - exists s, G. rewrite app_nil_r. split; [reflexivity|exact H].
  - cbn [grads map train fst snd]. rewrite give_params. destruct (Hstep h1 s lr D H) as (s1 & E & H1). rewrite E.
    destruct (IH (h1 ++ [(lr, D)]) s1 (fun i => Some (tab (n i) (D i))) H1) as (s2 & G2 & E2 & H2).
    replace (h1 ++ (lr, D) :: h2) with ((h1 ++ [(lr, D)]) ++ h2) by now rewrite <- app_assoc.
    exists s2, G2. split; [exact E2|exact H2].
Qed.
End Train.

Lemma elem_snoc : forall h lr D i j, elem_hist (h ++ [(lr, D)]) i j = elem_hist h i j ++ [(lr, D i j)].
Proof. intros. unfold elem_hist. now rewrite map_app. Qed.
Lemma elem_length : forall h i j, length (elem_hist h i j) = length h.
Proof. intros. unfold elem_hist. now rewrite map_length. Qed.

(** ** SGD *)
Lemma sgd_loop : forall lr l X D,
  sgd_step sub mul lr (map (fun i => mkP (tab (n i) (X i)) (Some (tab (n i) (D i)))) l)
  = (map (fun i => mkP (tab (n i) (fun j => sub (X i j) (mul (D i j) lr))) (Some (tab (n i) (D i)))) l, Ok tt).
Proof.
  intros lr l X D. induction l as [|i l IH]; cbn [map sgd_step]; [reflexivity|].
  unfold sgd_one, grad. cbn [p_grad p_val ok_or bind]. rewrite ts_tab, t2_tab. cbn [bind]. rewrite IH. reflexivity.
Qed.
Definition sgd_step' (lr : T) (s : unit) (ps : list param) : unit * list param * outcome unit :=
  let (ps', o) := sgd_step sub mul lr ps in (tt, ps', o).
Lemma sgd_train : forall X G h, exists s G',
  train sgd_step' tt (params X G) (grads h)
  = (s, params (fun i j => sgd_spec sub mul (X i j) (elem_hist h i j)) G', Ok tt).
Proof.
  intros X G h.
  destruct (train_ind sgd_step' (fun _ _ => True) (fun h i j => sgd_spec sub mul (X i j) (elem_hist h i j))) with (h2 := h) (h1 := @nil (T * (nat -> nat -> T))) (s := tt) (G := G)
    as (s & G' & E & _); auto.
  - intros h0 s lr D _. exists tt. split; [|exact I]. unfold sgd_step', params, tab at 1. rewrite sgd_loop.
    repeat f_equal. unfold tab. apply map_ext. intro i. f_equal. unfold tab. apply map_ext. intro j.
    rewrite elem_snoc. unfold sgd_spec. rewrite fold_left_app. reflexivity.
  - exists s, G'. exact E.
Qed.

(** ** Adam and AdamW *)
Lemma mul_loop_pw : forall b m, mul_loop mul b m = pw one mul b (S m).
Proof.
  intros b m. unfold mul_loop. induction m as [|m IH]; [reflexivity|].
  change (mul (Nat.iter m (fun x => mul x b) b) b = mul (pw one mul b (S m)) b). now rewrite IH.
Qed.
Section Adam.
Variable c : @adam_cfg T.
Variable upd1 : T -> nat -> @param T -> list T -> list T -> outcome (@param T).
(** the value of the update of one element *)
Variable u1 : T -> nat -> T -> T -> T -> T.
Hypothesis Hupd : forall lr t m' X g M V,
  upd1 lr t (mkP (tab m' X) g) (tab m' M) (tab m' V) = Ok (mkP (tab m' (fun j => u1 lr t (X j) (M j) (V j))) g).
Definition nm (g m : T) : T := add (mul m (beta1 c)) (mul g (sub one (beta1 c))).
Definition nv (g v : T) : T := add (mul v (beta2 c)) (mul (mul g g) (sub one (beta2 c))).
Lemma adam_loop_tab : forall lr t l X D M V,
  adam_loop one add sub mul (upd1 lr t) c
    (map (fun i => mkP (tab (n i) (X i)) (Some (tab (n i) (D i)))) l)
    (map (fun i => tab (n i) (M i)) l) (map (fun i => tab (n i) (V i)) l)
  = (map (fun i => mkP (tab (n i) (fun j => u1 lr t (X i j) (nm (D i j) (M i j)) (nv (D i j) (V i j)))) (Some (tab (n i) (D i)))) l,
     map (fun i => tab (n i) (fun j => nm (D i j) (M i j))) l,
     map (fun i => tab (n i) (fun j => nv (D i j) (V i j))) l, Ok tt).
Proof.
  intros lr t l X D M V. induction l as [|i l IH]; cbn [map adam_loop]; [reflexivity|].
  unfold grad, moment1, moment2. cbn [p_grad ok_or bind]. rewrite !ts_tab, t2_tab. cbn [bind].
  rewrite square_tab, ts_tab, t2_tab. rewrite Hupd. rewrite IH. reflexivity.
Qed.

Definition grads_of (h : whist) i j : list T := map snd (elem_hist h i j).
Lemma mom1_snoc : forall h lr D i j,
  mom1 zero one add sub mul (beta1 c) (grads_of (h ++ [(lr, D)]) i j)
  = nm (D i j) (mom1 zero one add sub mul (beta1 c) (grads_of h i j)).
Proof. intros. unfold grads_of. rewrite elem_snoc, map_app. unfold mom1. rewrite fold_left_app. reflexivity. Qed.
Lemma mom2_snoc : forall h lr D i j,
  mom2 zero one add sub mul (beta2 c) (grads_of (h ++ [(lr, D)]) i j)
  = nv (D i j) (mom2 zero one add sub mul (beta2 c) (grads_of h i j)).
Proof. intros. unfold grads_of. rewrite elem_snoc, map_app. unfold mom2. rewrite fold_left_app. reflexivity. Qed.

Definition adam_state (h : whist) (s : @adam T) : Prop :=
  a_t s = length h
  /\ (a_m s = tab k (fun i => tab (n i) (fun j => mom1 zero one add sub mul (beta1 c) (grads_of h i j)))
      /\ a_v s = tab k (fun i => tab (n i) (fun j => mom2 zero one add sub mul (beta2 c) (grads_of h i j)))
      \/ h = [] /\ a_m s = [] /\ a_v s = []).

Variable Y : whist -> nat -> nat -> T.
Hypothesis HY : forall h lr D i j,
  Y (h ++ [(lr, D)]) i j
  = u1 lr (S (length h)) (Y h i j)
       (mom1 zero one add sub mul (beta1 c) (grads_of (h ++ [(lr, D)]) i j))
       (mom2 zero one add sub mul (beta2 c) (grads_of (h ++ [(lr, D)]) i j)).
Lemma adam_train_gen : forall G h, exists s G',
  train (fun lr s ps => adam_step_with zero one add sub mul (upd1 lr) c s ps) adam_new (params (Y []) G) (grads h)
  = (s, params (Y h) G', Ok tt).
Proof.
  intros G h.
  destruct (train_ind (fun lr s ps => adam_step_with zero one add sub mul (upd1 lr) c s ps) adam_state Y) with
    (h2 := h) (h1 := @nil (T * (nat -> nat -> T))) (s := @adam_new T) (G := G) as (s & G' & E & _).
  - intros h0 s lr D (Ht & Hs). unfold adam_step_with.
    set (init := is_nil (a_m s) || is_nil (a_v s)).
    assert (Em : (if init then map (zeros_like zero) (params (Y h0) (fun i => Some (tab (n i) (D i)))) else a_m s)
                 = map (fun i => tab (n i) (fun j => mom1 zero one add sub mul (beta1 c) (grads_of h0 i j))) (seq 0 k)).
    { destruct Hs as [[Hm Hv]|(-> & Hm & Hv)].
      - subst init. rewrite Hm, Hv. unfold params. destruct k as [|k']; reflexivity.
      - subst init. rewrite Hm. cbn [is_nil orb]. unfold params. rewrite map_tab. unfold tab at 1. apply map_ext. intro i.
        apply zeros_tab. }
    assert (Ev : (if init then map (zeros_like zero) (params (Y h0) (fun i => Some (tab (n i) (D i)))) else a_v s)
                 = map (fun i => tab (n i) (fun j => mom2 zero one add sub mul (beta2 c) (grads_of h0 i j))) (seq 0 k)).
    { destruct Hs as [[Hm Hv]|(-> & Hm & Hv)].
      - subst init. rewrite Hm, Hv. unfold params. destruct k as [|k']; reflexivity.
      - subst init. rewrite Hm. cbn [is_nil orb]. unfold params. rewrite map_tab. unfold tab at 1. apply map_ext. intro i.
        apply zeros_tab. }
    rewrite Em, Ev. unfold params at 1. unfold tab at 1. rewrite adam_loop_tab. eexists. split.
    + f_equal. f_equal. unfold params, tab. apply map_ext. intro i. f_equal. apply map_ext. intro j.
      rewrite HY, mom1_snoc, mom2_snoc, Ht. reflexivity.
    + split; cbn [a_t a_m a_v]; [rewrite app_length, Ht; cbn; lia|]. left. split.
      * unfold tab. apply map_ext. intro i. apply map_ext. intro j. now rewrite mom1_snoc.
      * unfold tab. apply map_ext. intro i. apply map_ext. intro j. now rewrite mom2_snoc.
  - split; [reflexivity|]. right. repeat split.
  - exists s, G'. exact E.
Qed.
End Adam.

Lemma grads_of_length : forall h i j, length (grads_of h i j) = length h.
Proof. intros. unfold grads_of. now rewrite map_length, elem_length. Qed.

Lemma adamw_train : forall c X G h, exists s G',
  train (adamw_step zero one add sub mul div sqrt c) adam_new (params X G) (grads h)
  = (s, params (fun i j => adamw_spec zero one add sub mul div sqrt (beta1 c) (beta2 c) (eps c) (wdecay c) (X i j) (elem_hist h i j)) G', Ok tt).
Proof.
  intros c X G h.
  apply (adam_train_gen c (adamw_update one add sub mul div sqrt c)
    (fun lr t x m v => sub (mul x (sub one (mul lr (wdecay c))))
       (mul (div (div m (sub one (mul_loop mul (beta1 c) (t - 1))))
                 (add (sqrt (div v (sub one (mul_loop mul (beta2 c) (t - 1))))) (eps c))) lr))) with
    (Y := fun h i j => adamw_spec zero one add sub mul div sqrt (beta1 c) (beta2 c) (eps c) (wdecay c) (X i j) (elem_hist h i j)).
  - intros lr t m' X' g M V. unfold adamw_update. cbn [p_val]. rewrite !ts_tab, map_tab, ts_tab, t2_tab. cbn [bind].
    rewrite ts_tab, t2_tab. reflexivity.
  - intros h0 lr D i j. unfold adamw_spec. rewrite elem_snoc, rev_app_distr. cbn [rev app adamw_rev].
    f_equal. f_equal. unfold adam_dir.
    replace (rev (map snd ((lr, D i j) :: rev (elem_hist h0 i j)))) with (grads_of (h0 ++ [(lr, D)]) i j).
    + rewrite grads_of_length, app_length, !mul_loop_pw. cbn [length]. replace (S (S (length h0) - 1)) with (length h0 + 1) by lia.
      reflexivity.
    + unfold grads_of. rewrite elem_snoc, map_app. cbn [map rev]. rewrite map_rev, rev_involutive. reflexivity.
Qed.

Lemma adam_train : forall c X G h, exists s G',
  train (adam_step zero one add sub mul div sqrt c) adam_new (params X G) (grads h)
  = (s, params (fun i j => adam_code zero one add sub mul div sqrt (beta1 c) (beta2 c) (eps c) (X i j) (elem_hist h i j)) G', Ok tt).
Proof.
  intros c X G h.
  apply (adam_train_gen c (adam_update one add sub mul div sqrt c)
    (fun lr t x m v => sub x
       (mul (div (div m (sub one (mul_loop mul (beta1 c) t)))
                 (add (sqrt (div v (sub one (mul_loop mul (beta2 c) t)))) (eps c)))
            (div (mul lr (sqrt (sub one (mul_loop mul (beta2 c) t)))) (sub one (mul_loop mul (beta1 c) t)))))) with
    (Y := fun h i j => adam_code zero one add sub mul div sqrt (beta1 c) (beta2 c) (eps c) (X i j) (elem_hist h i j)).
  - intros lr t m' X' g M V. unfold adam_update. cbn [p_val]. rewrite !ts_tab, map_tab, ts_tab, t2_tab. cbn [bind].
    rewrite ts_tab, t2_tab. reflexivity.
  - intros h0 lr D i j. unfold adam_code. rewrite elem_snoc, rev_app_distr. cbn [rev app adam_code_rev].
    f_equal. unfold adam_code_dir, adam_code_lr.
    replace (rev (map snd ((lr, D i j) :: rev (elem_hist h0 i j)))) with (grads_of (h0 ++ [(lr, D)]) i j).
    + rewrite grads_of_length, app_length, !mul_loop_pw. cbn [length]. rewrite rev_length, elem_length, Nat.add_1_r. reflexivity.
    + unfold grads_of. rewrite elem_snoc, map_app. cbn [map rev]. rewrite map_rev, rev_involutive. reflexivity.
Qed.

(** ** Adagrad *)
Lemma add_decay_tab : forall w m' X D g, (is_zero w = true -> forall a x, add a (mul x w) = a) ->
  add_decay add mul is_zero w (mkP (tab m' X) g) (tab m' D) = Ok (tab m' (fun j => add (D j) (mul (X j) w))).
Proof.
  intros w m' X D g Hz. unfold add_decay. destruct (is_zero w) eqn:E.
  - f_equal. apply tab_ext. intros j _. now rewrite Hz.
  - cbn [p_val]. rewrite ts_tab, t2_tab. reflexivity.
Qed.
Section Adagrad.
Variable c : @adagrad_cfg T.
Hypothesis Hw : is_zero (g_wdecay c) = true -> forall a x, add a (mul x (g_wdecay c)) = a.
Hypothesis Hi : is_zero (g_init c) = true -> g_init c = zero.
Definition gnext := adagrad_next one add sub mul div sqrt of_nat (g_decay c) (g_eps c) (g_wdecay c).
Definition gx (s : nat * T * T) : T := snd (fst s).
Lemma adagrad_loop_tab : forall lr t l X D V,
  adagrad_loop one add sub mul div sqrt of_nat is_zero c lr (S t)
    (map (fun i => mkP (tab (n i) (X i)) (Some (tab (n i) (D i)))) l) (map (fun i => tab (n i) (V i)) l)
  = (map (fun i => mkP (tab (n i) (fun j => gx (gnext (t, X i j, V i j) (lr, D i j)))) (Some (tab (n i) (D i)))) l,
     map (fun i => tab (n i) (fun j => snd (gnext (t, X i j, V i j) (lr, D i j)))) l, Ok tt).
Proof.
  intros lr t l X D V. induction l as [|i l IH]; cbn [map adagrad_loop]; [reflexivity|].
  unfold adagrad_one, grad. cbn [p_grad ok_or bind]. rewrite add_decay_tab by exact Hw. cbn [bind].
  rewrite square_tab, t2_tab. cbn [bind]. rewrite map_tab, ts_tab, t2_tab. cbn [bind p_val]. rewrite ts_tab, t2_tab. cbn [bind].
  rewrite IH. reflexivity.
Qed.
Definition gspec (x : T) (h : list (T * T)) := adagrad_spec one add sub mul div sqrt of_nat (g_decay c) (g_eps c) (g_wdecay c) (g_init c) x h.
Lemma gspec_t : forall x h, fst (fst (gspec x h)) = length h.
Proof.
  intros x h. unfold gspec, adagrad_spec.
  assert (K : forall s, fst (fst (fold_left (adagrad_next one add sub mul div sqrt of_nat (g_decay c) (g_eps c) (g_wdecay c)) h s)) = fst (fst s) + length h).
  { induction h as [|a h IH]; intros [[t y] v]; cbn [fold_left length]; [cbn; lia|]. rewrite IH. cbn. lia. }
  rewrite K. reflexivity.
Qed.
Lemma adagrad_train : forall X G h, exists s G',
  train (adagrad_step zero one add sub mul div sqrt of_nat is_zero c) adagrad_new (params X G) (grads h)
  = (s, params (fun i j => gx (gspec (X i j) (elem_hist h i j))) G', Ok tt).
Proof.
  intros X G h.
  destruct (train_ind (adagrad_step zero one add sub mul div sqrt of_nat is_zero c)
    (fun h s => g_t s = length h /\ (g_v s = tab k (fun i => tab (n i) (fun j => snd (gspec (X i j) (elem_hist h i j)))) \/ h = [] /\ g_v s = []))
    (fun h i j => gx (gspec (X i j) (elem_hist h i j)))) with
    (h2 := h) (h1 := @nil (T * (nat -> nat -> T))) (s := @adagrad_new T) (G := G) as (s & G' & E & _).
  - intros h0 s lr D (Ht & Hs). unfold adagrad_step.
    set (P := params (fun i j => gx (gspec (X i j) (elem_hist h0 i j))) (fun i => Some (tab (n i) (D i)))).
    assert (Ev : (if is_nil (g_v s) then (if is_zero (g_init c) then map (zeros_like zero) P else map (fun p => full_like p (g_init c)) P) else g_v s)
                 = map (fun i => tab (n i) (fun j => snd (gspec (X i j) (elem_hist h0 i j)))) (seq 0 k)).
    { destruct Hs as [Hv|(-> & Hv)].
      - rewrite Hv. subst P. unfold params. destruct k; [|reflexivity]. destruct (is_zero (g_init c)); reflexivity.
      - rewrite Hv. cbn [is_nil]. subst P. unfold params. destruct (is_zero (g_init c)) eqn:Ez; rewrite map_tab; unfold tab at 1;
          apply map_ext; intro i; [rewrite zeros_tab|rewrite full_tab]; apply tab_ext; intros j _; cbn; auto.
        now rewrite Hi. }
    rewrite Ev. subst P. unfold params at 1. unfold tab at 1. rewrite Ht, adagrad_loop_tab.
    assert (Es : forall i j, gspec (X i j) (elem_hist (h0 ++ [(lr, D)]) i j)
       = gnext (length h0, gx (gspec (X i j) (elem_hist h0 i j)), snd (gspec (X i j) (elem_hist h0 i j))) (lr, D i j)).
    { intros i j. rewrite elem_snoc. unfold gspec at 1, adagrad_spec. rewrite fold_left_app. cbn [fold_left].
      fold (adagrad_spec one add sub mul div sqrt of_nat (g_decay c) (g_eps c) (g_wdecay c) (g_init c) (X i j) (elem_hist h0 i j)).
      fold (gspec (X i j) (elem_hist h0 i j)). fold gnext. f_equal.
      pose proof (gspec_t (X i j) (elem_hist h0 i j)) as K. rewrite elem_length in K.
      destruct (gspec (X i j) (elem_hist h0 i j)) as [[t y] v]. cbn in *. now subst. }
    eexists. split.
    + f_equal. f_equal. unfold params, tab. apply map_ext. intro i. f_equal. apply map_ext. intro j. now rewrite Es.
    + split; cbn [g_t g_v]; [rewrite app_length; cbn; lia|]. left.
      unfold tab. apply map_ext. intro i. apply map_ext. intro j. now rewrite Es.
  - split; [reflexivity|]. right. split; reflexivity.
  - exists s, G'. exact E.
Qed.
End Adagrad.

(** ** RMSprop *)
Section Rms.
Variable c : @rms_cfg T.
Hypothesis Hw : is_zero (r_wdecay c) = true -> forall a x, add a (mul x (r_wdecay c)) = a.
Definition mu : option T := if is_zero (r_momentum c) then None else Some (r_momentum c).
Definition rnext := rms_next one add sub mul div sqrt (r_alpha c) (r_eps c) (r_wdecay c) mu (r_centered c).
Definition rx (s : T * T * T * T) : T := fst (fst (fst s)).
Definition rv (s : T * T * T * T) : T := snd (fst (fst s)).
Definition rm (s : T * T * T * T) : T := snd (fst s).
Definition rg (s : T * T * T * T) : T := snd s.
Lemma rms_one_tab : forall lr m' D (Q : nat -> T * T * T * T),
  rms_one one add sub mul div sqrt is_zero c lr (mkP (tab m' (fun j => rx (Q j))) (Some (tab m' D)))
    (mkR1 (tab m' (fun j => rv (Q j))) (tab m' (fun j => rm (Q j))) (tab m' (fun j => rg (Q j))))
  = (mkR1 (tab m' (fun j => rv (rnext (Q j) (lr, D j)))) (tab m' (fun j => rm (rnext (Q j) (lr, D j))))
          (tab m' (fun j => rg (rnext (Q j) (lr, D j)))),
     Ok (mkP (tab m' (fun j => rx (rnext (Q j) (lr, D j)))) (Some (tab m' D)))).
Proof.
  intros lr m' D Q.
  unfold rms_one, grad. cbn [p_grad ok_or bind r_v r_m r_g]. rewrite add_decay_tab by exact Hw. cbn [bind].
  rewrite square_tab, !ts_tab, t2_tab. cbn [bind].
  assert (Er : forall j, rnext (Q j) (lr, D j) = rnext (rx (Q j), rv (Q j), rm (Q j), rg (Q j)) (lr, D j)).
  { intro j. destruct (Q j) as [[[? ?] ?] ?]. reflexivity. }
  assert (Ex : forall (f : T * T * T * T -> T), tab m' (fun j => f (rnext (Q j) (lr, D j)))
          = tab m' (fun j => f (rnext (rx (Q j), rv (Q j), rm (Q j), rg (Q j)) (lr, D j)))).
  { intro f. apply tab_ext. intros j _. now rewrite Er. }
  rewrite (Ex rx), (Ex rv), (Ex rm), (Ex rg). unfold rnext, rms_next, mu.
  destruct (r_centered c); cbn [r_m r_g r_v].
  - rewrite !ts_tab, t2_tab. cbn [bind]. cbn [r_g r_m r_v]. rewrite square_tab, t2_tab, map_tab, ts_tab, t2_tab.
    destruct (is_zero (r_momentum c)); cbn [negb].
    + cbn [p_val]. rewrite ts_tab, t2_tab. reflexivity.
    + rewrite ts_tab, t2_tab. cbn [p_val]. rewrite ts_tab, t2_tab. reflexivity.
  - rewrite map_tab, ts_tab, t2_tab.
    destruct (is_zero (r_momentum c)); cbn [negb].
    + cbn [p_val]. rewrite ts_tab, t2_tab. reflexivity.
    + rewrite ts_tab, t2_tab. cbn [p_val]. rewrite ts_tab, t2_tab. reflexivity.
Qed.
Lemma rms_loop_tab : forall lr l D (Q : nat -> nat -> T * T * T * T),
  rms_loop one add sub mul div sqrt is_zero c lr
    (map (fun i => mkP (tab (n i) (fun j => rx (Q i j))) (Some (tab (n i) (D i)))) l)
    (map (fun i => mkR1 (tab (n i) (fun j => rv (Q i j))) (tab (n i) (fun j => rm (Q i j))) (tab (n i) (fun j => rg (Q i j)))) l)
  = (map (fun i => mkP (tab (n i) (fun j => rx (rnext (Q i j) (lr, D i j)))) (Some (tab (n i) (D i)))) l,
     map (fun i => mkR1 (tab (n i) (fun j => rv (rnext (Q i j) (lr, D i j)))) (tab (n i) (fun j => rm (rnext (Q i j) (lr, D i j))))
                        (tab (n i) (fun j => rg (rnext (Q i j) (lr, D i j))))) l, Ok tt).
Proof.
  intros lr l D Q. induction l as [|i l IH]; cbn [map rms_loop]; [reflexivity|].
  rewrite rms_one_tab, IH. reflexivity.
Qed.
Definition rspec (x : T) (h : list (T * T)) := rms_spec zero one add sub mul div sqrt (r_alpha c) (r_eps c) (r_wdecay c) mu (r_centered c) x h.
Definition rstate (X : nat -> nat -> T) (h : whist) : list (@rms1 T) :=
  tab k (fun i => mkR1 (tab (n i) (fun j => rv (rspec (X i j) (elem_hist h i j)))) (tab (n i) (fun j => rm (rspec (X i j) (elem_hist h i j))))
                       (tab (n i) (fun j => rg (rspec (X i j) (elem_hist h i j))))).
Lemma rms_train : forall X G h, exists s G',
  train (rms_step zero one add sub mul div sqrt is_zero c) [] (params X G) (grads h)
  = (s, params (fun i j => rx (rspec (X i j) (elem_hist h i j))) G', Ok tt).
Proof.
  intros X G h.
  destruct (train_ind (rms_step zero one add sub mul div sqrt is_zero c) (fun h s => s = rstate X h \/ h = [] /\ s = [])
    (fun h i j => rx (rspec (X i j) (elem_hist h i j)))) with
    (h2 := h) (h1 := @nil (T * (nat -> nat -> T))) (s := @nil (@rms1 T)) (G := G) as (s & G' & E & _).
  - intros h0 s lr D Hs. unfold rms_step.
    assert (Ev : (if is_nil s then map (fun p => mkR1 (zeros_like zero p) (zeros_like zero p) (zeros_like zero p))
                                     (params (fun i j => rx (rspec (X i j) (elem_hist h0 i j))) (fun i => Some (tab (n i) (D i)))) else s)
                 = rstate X h0).
    { destruct Hs as [->|(-> & ->)].
      - unfold rstate, params. destruct k; reflexivity.
      - cbn [is_nil]. unfold params, rstate. rewrite map_tab. apply tab_ext. intros i _. rewrite zeros_tab. reflexivity. }
    rewrite Ev. unfold params at 1. unfold rstate. unfold tab at 1 5. rewrite rms_loop_tab.
    assert (Es : forall i j, rspec (X i j) (elem_hist (h0 ++ [(lr, D)]) i j) = rnext (rspec (X i j) (elem_hist h0 i j)) (lr, D i j)).
    { intros i j. rewrite elem_snoc. unfold rspec at 1, rms_spec. rewrite fold_left_app. reflexivity. }
    eexists. split.
    + f_equal. f_equal. unfold params, tab. apply map_ext. intro i. f_equal. apply map_ext. intro j. now rewrite Es.
    + left. unfold rstate. unfold tab at 4. apply map_ext. intro i. f_equal; apply tab_ext; intros j _; now rewrite Es.
  - right. split; reflexivity.
  - exists s, G'. exact E.
Qed.
End Rms.
End Proofs.
