From Coq Require Import String Ascii.
From Coq Require Import List NArith ZArith Bool Lia.
From Coq Require Import ZifyBool ZifyNat.
From Verif Require Import Base IndexSpec LayoutModel LayoutProofs KernelModel TensorModel EncodeModel EncodeProofs RpcModel CliModel CliProofs.
Import ListNotations.
Local Open Scope string_scope.
Local Open Scope list_scope.

Lemma split_once_iff : forall c s a b, split_once c s = Some (a, b) <-> no_char c a /\ s = a ^^ String c b.
Proof.
  intros c. induction s as [|d s IH]; intros a b.
  - cbn. split; [discriminate|]. intros [_ E]. destruct a; discriminate.
  - cbn. destruct (Ascii.eqb_spec c d) as [->|H].
    + split.
      * intro E; inversion E; subst. split; [exact I|reflexivity].
      * intros [N E]. destruct a as [|x a]; cbn in E; inversion E; subst; [reflexivity|]. destruct N; congruence.
    + destruct (split_once c s) as [[x y]|] eqn:E; cbn.
      * assert (X : no_char c x /\ s = x ^^ String c y) by (apply IH; reflexivity). destruct X as [X1 X2].
        split.
        -- intro E'; inversion E'; subst. split; [split; auto|reflexivity].
        -- intros [N E']. destruct a as [|z a]; cbn in E'; inversion E' as [[E1 E2]]; [congruence|]. subst z.
           destruct N as [_ N]. assert (Y : Some (x, y) = Some (a, b)) by (apply IH; auto). congruence.
      * split; [discriminate|]. intros [N E']. destruct a as [|z a]; cbn in E'; inversion E' as [[E1 E2]]; [congruence|].
        destruct N as [_ N]. assert (Y : None = Some (a, b)) by (apply IH; auto). discriminate.
Qed.

Lemma list_eqb_eq : forall a b, list_eqb a b = true <-> a = b.
Proof.
  induction a as [|x a IH]; intros [|y b]; cbn; split; intro H; try discriminate; auto.
  - apply andb_true_iff in H. destruct H as [H1 H2]. apply Nat.eqb_eq in H1. apply IH in H2. congruence.
  - inversion H; subst. rewrite Nat.eqb_refl. now apply IH.
Qed.
Lemma pd_eqb_eq : forall a b, pd_eqb a b = true <-> a = b.
Proof. intros a b. split; [|intros ->; apply Nat.eqb_refl]. destruct a, b; cbn; congruence. Qed.

Lemma find_first : forall A (f : A -> bool) l x, find f l = Some x <->
  exists pre post, l = pre ++ x :: post /\ f x = true /\ forall y, In y pre -> f y = false.
Proof.
  intros A f l x. induction l as [|a l IH]; cbn.
  - split; [discriminate|]. intros (pre & post & E & _). destruct pre; discriminate.
  - destruct (f a) eqn:E; split.
    + intro H; inversion H; subst. exists [], l. repeat split; auto. intros y [].
    + intros (pre & post & H & Hx & Hp). destruct pre as [|b pre]; cbn in H; inversion H; subst; [reflexivity|].
      specialize (Hp b (or_introl eq_refl)). congruence.
    + intro H. apply IH in H. destruct H as (pre & post & -> & Hx & Hp). exists (a :: pre), post.
      repeat split; auto. intros y [<-|Hy]; auto.
    + intros (pre & post & H & Hx & Hp). apply IH. destruct pre as [|b pre]; cbn in H; inversion H; subst; [congruence|].
      exists pre, post. repeat split; auto. intros y Hy. apply Hp. right; exact Hy.
Qed.

Section Inputs.
Variable file_exists : string -> bool.
Variable extension : string -> string.
Variable read_json : string -> option json.
Variable read_hdt : string -> option hdt.
Variables (home : option string) (join : string -> string -> string).
Variables (f32_bits f64_bits : json -> option Z).
Notation load := (load_tensor_file extension read_json read_hdt f32_bits f64_bits).
Notation expand := (expand_path home join).
Notation parse1 := (parse_input file_exists extension read_json read_hdt home join f32_bits f64_bits).
Notation parse := (parse_inputs file_exists extension read_json read_hdt home join f32_bits f64_bits).
Notation pargs := (parse_args file_exists extension read_json read_hdt home join f32_bits f64_bits).

(** [arg] is [name=path] with [name] the model input [i] and the file loading as [td] *)
Definition arg_ok (specs : list input_spec) (arg name : string) (td : tensor_data) : Prop :=
  exists raw i pre post, no_char "="%char name /\ arg = name ^^ "=" ^^ raw
    /\ specs = pre ++ i :: post /\ in_name i = name /\ (forall j, In j pre -> in_name j <> name)
    /\ file_exists (expand raw) = true
    /\ load (expand raw) (in_shape i) (core_dtype_to_plugin (in_dtype i)) = Some td.

Lemma parse1_iff : forall specs arg name td, parse1 specs arg = Some (name, td) <-> arg_ok specs arg name td.
Proof.
  intros specs arg name td. unfold parse_input, arg_ok.
  destruct (split_once "=" arg) as [[n raw]|] eqn:E.
  - apply split_once_iff in E. destruct E as [Hn ->]. split.
    + intro H. destruct (file_exists (expand raw)) eqn:Ef; [|discriminate]. cbn [negb] in H.
      destruct (find _ specs) as [i|] eqn:Ei; [|discriminate].
      destruct (load _ _ _) as [td'|] eqn:El; [|discriminate]. cbn in H. inversion H; subst.
      apply find_first in Ei. destruct Ei as (pre & post & -> & Hx & Hp). apply String.eqb_eq in Hx.
      exists raw, i, pre, post. repeat split; auto.
      intros j Hj C. specialize (Hp j Hj). apply String.eqb_neq in Hp. congruence.
    + intros (raw' & i & pre & post & Hn' & Ea & -> & Hi & Hp & Hf & Hl).
      assert (X : split_once "=" (name ^^ String "=" raw') = Some (name, raw')) by (apply split_once_iff; auto).
      assert (Y : split_once "=" (n ^^ String "=" raw) = Some (n, raw)) by (apply split_once_iff; auto).
      change ("=" ^^ raw') with (String "=" raw') in Ea. rewrite Ea in Y. rewrite X in Y. inversion Y; subst n raw'.
      rewrite Hf. cbn [negb].
      assert (F : find (fun i0 => in_name i0 =? name) (pre ++ i :: post) = Some i).
      { apply find_first. exists pre, post. repeat split; auto; [now apply String.eqb_eq|].
        intros y Hy. apply String.eqb_neq. auto. }
      rewrite F, Hl. reflexivity.
  - split; [discriminate|]. intros (raw' & i & pre & post & Hn' & -> & _).
    assert (X : split_once "=" (name ^^ String "=" raw') = Some (name, raw')) by (apply split_once_iff; auto).
    change ("=" ^^ raw') with (String "=" raw') in E. congruence.
Qed.

Lemma pargs_iff : forall specs args m m', pargs specs args m = Some m' <->
  exists kvs, Forall2 (fun a kv => arg_ok specs a (fst kv) (snd kv)) args kvs /\ m' = rev kvs ++ m.
Proof.
  intros specs. induction args as [|a args IH]; intros m m'; cbn.
  - split.
    + intro H; inversion H; subst. exists []. split; [constructor|reflexivity].
    + intros (kvs & F & ->). inversion F; subst. reflexivity.
  - destruct (parse1 specs a) as [[k td]|] eqn:E.
    + apply parse1_iff in E. rewrite IH. split.
      * intros (kvs & F & ->). exists ((k, td) :: kvs). split; [constructor; auto|].
        cbn. rewrite <- app_assoc. reflexivity.
      * intros (kvs & F & ->). inversion F as [|? [k' td'] ? kvs' H1 H2]; subst. exists kvs'. split; [exact H2|].
        cbn. rewrite <- app_assoc. cbn. f_equal. f_equal. cbn in H1.
        apply parse1_iff in E, H1. congruence.
    + split; [discriminate|]. intros (kvs & F & _). inversion F as [|? [k' td'] ? kvs' H1 H2]; subst.
      apply parse1_iff in H1. cbn in *. congruence.
Qed.

Lemma in_get_some : forall m k, (exists v, in_get m k = Some v) <-> exists v, In (k, v) m.
Proof.
  intros m k. unfold in_get. split.
  - intros [v H]. destruct (find _ m) as [[k' v']|] eqn:E; [|discriminate].
    apply find_some in E. destruct E as [E1 E2]. cbn in E2. apply String.eqb_eq in E2. subst. eauto.
  - intros [v H]. destruct (find _ m) as [[k' v']|] eqn:E; [eauto|].
    pose proof (find_none _ _ E _ H) as C. cbn in C. rewrite String.eqb_refl in C. discriminate.
Qed.

Lemma parse_iff : forall args specs m, parse args specs = Some m <->
  exists kvs, Forall2 (fun a kv => arg_ok specs a (fst kv) (snd kv)) args kvs /\ m = rev kvs
    /\ forall i, In i specs -> In (in_name i) (map fst kvs).
Proof.
  intros args specs m. unfold parse_inputs. destruct (pargs specs args []) as [m0|] eqn:E.
  - apply pargs_iff in E. destruct E as (kvs & F & ->). rewrite app_nil_r.
    destruct (forallb _ specs) eqn:Ef.
    + split.
      * intro H; inversion H; subst. exists kvs. repeat split; auto. intros i Hi.
        rewrite forallb_forall in Ef. specialize (Ef i Hi).
        destruct (in_get (rev kvs) (in_name i)) as [v|] eqn:Eg; [|discriminate].
        assert (X : exists v, In (in_name i, v) (rev kvs)) by (apply in_get_some; eauto).
        destruct X as [v' X]. apply in_rev in X. apply in_map_iff. exists (in_name i, v'); auto.
      * intros (kvs' & F' & -> & _). f_equal. f_equal.
        assert (P : pargs specs args [] = Some (rev kvs ++ [])) by (apply pargs_iff; eauto).
        assert (P' : pargs specs args [] = Some (rev kvs' ++ [])) by (apply pargs_iff; eauto).
        rewrite !app_nil_r in *. rewrite P in P'. inversion P'.
        rewrite <- (rev_involutive kvs), <- (rev_involutive kvs'). congruence.
    + split; [discriminate|]. intros (kvs' & F' & -> & H). exfalso.
      assert (P : pargs specs args [] = Some (rev kvs ++ [])) by (apply pargs_iff; eauto).
      assert (P' : pargs specs args [] = Some (rev kvs' ++ [])) by (apply pargs_iff; eauto).
      rewrite !app_nil_r in *. rewrite P in P'. inversion P' as [Er].
      assert (forallb (fun i => match in_get (rev kvs) (in_name i) with Some _ => true | None => false end) specs = true).
      { apply forallb_forall. intros i Hi. specialize (H i Hi). apply in_map_iff in H. destruct H as ([k v] & Ek & Hv).
        cbn in Ek. subst k. apply in_rev in Hv. rewrite <- Er in Hv.
        destruct (proj2 (in_get_some (rev kvs) (in_name i)) (ex_intro _ v Hv)) as [w ->]. reflexivity. }
      congruence.
  - split; [discriminate|]. intros (kvs & F & -> & _).
    assert (P : pargs specs args [] = Some (rev kvs ++ [])) by (apply pargs_iff; eauto). congruence.
Qed.

(** the last of equal names *)
Lemma in_get_last : forall kvs k v, in_get (rev kvs) k = Some v <->
  exists pre post, kvs = pre ++ (k, v) :: post /\ ~ In k (map fst post).
Proof.
  intros kvs k v. unfold in_get. split.
  - intro H. destruct (find _ (rev kvs)) as [[k' v']|] eqn:E; [|discriminate]. inversion H; subst v'.
    apply find_first in E. destruct E as (pre & post & E & Hx & Hp). cbn in Hx. apply String.eqb_eq in Hx. subst k'.
    exists (rev post), (rev pre). split.
    + rewrite <- (rev_involutive kvs), E, rev_app_distr. cbn. rewrite <- app_assoc. reflexivity.
    + intro C. apply in_map_iff in C. destruct C as ([k' w] & Ek & Hw). cbn in Ek. subst k'. apply in_rev in Hw.
      specialize (Hp _ Hw). cbn in Hp. rewrite String.eqb_refl in Hp. discriminate.
  - intros (pre & post & -> & Hn).
    assert (F : find (fun p => fst p =? k) (rev (pre ++ (k, v) :: post)) = Some (k, v)).
    { apply find_first. exists (rev post), (rev pre). split; [rewrite rev_app_distr; cbn; rewrite <- app_assoc; reflexivity|].
      cbn. split; [apply String.eqb_refl|]. intros [k' w] Hw. cbn. apply String.eqb_neq. intros ->. apply Hn.
      apply in_map_iff. exists (k, w). split; auto. now apply in_rev. }
    rewrite F. reflexivity.
Qed.

(** *** the loaders *)
Lemma map_opt_length : forall A B (f : A -> option B) l r, map_opt f l = Some r -> length r = length l.
Proof.
  intros A B f. induction l as [|x l IH]; intros r H; cbn in H.
  - inversion H; reflexivity.
  - destruct (f x); [|discriminate]. destruct (map_opt f l); [|discriminate]. inversion H; subst. cbn. f_equal. auto.
Qed.
Lemma flat_le_length : forall w l, length (flat_map (le_bytes w) l) = length l * w.
Proof.
  intros w l. induction l as [|x l IH]; [reflexivity|]. cbn [flat_map length]. rewrite app_length, le_bytes_length, IH. lia.
Qed.
Lemma opt_bytes_length : forall w (f : json -> option Z) arr bs,
  option_map (flat_map (le_bytes w)) (map_opt f arr) = Some bs -> length bs = length arr * w.
Proof.
  intros w f arr bs H. destruct (map_opt f arr) as [l|] eqn:E; [|discriminate].
  apply map_opt_length in E. rewrite <- E, <- flat_le_length. cbn in H. congruence.
Qed.
Lemma json_bytes_length : forall arr d bs, json_array_to_bytes f32_bits f64_bits arr d = Some bs ->
  length bs = length arr * pdsize d.
Proof.
  intros arr d bs H. destruct d; try discriminate; eapply opt_bytes_length; exact H.
Qed.

Lemma load_json_spec : forall path s d td, load_tensor_json read_json f32_bits f64_bits path s d = Some td ->
  td_shape td = s /\ td_dtype td = d /\
  exists kvs arr, read_json path = Some (JObj kvs) /\ get "data" kvs = Some (JArr arr)
    /\ json_array_to_bytes f32_bits f64_bits arr d = Some (td_data td)
    /\ length (td_data td) = length arr * pdsize d.
Proof.
  intros path s d td H. unfold load_tensor_json in H.
  destruct (read_json path) as [[]|]; try discriminate.
  destruct (get "shape" kvs) as [[]|]; try discriminate.
  destruct (map_opt as_u64 l) as [s'|]; [|discriminate].
  destruct (list_eqb s' s) eqn:Es; [|discriminate]. apply list_eqb_eq in Es. subst s'. cbn [negb] in H.
  destruct (get "dtype" kvs) as [[]|]; try discriminate.
  destruct (str_to_pdtype s0) as [d'|]; [|discriminate].
  destruct (pd_eqb d' d) eqn:Ed; [|discriminate]. apply pd_eqb_eq in Ed. subst d'. cbn [negb] in H.
  destruct (get "data" kvs) as [[]|] eqn:Eg; try discriminate.
  destruct (json_array_to_bytes f32_bits f64_bits l0 d) as [bs|] eqn:Eb; [|discriminate]. cbn in H. inversion H; subst. cbn.
  repeat split; auto. exists kvs, l0. repeat split; auto. eapply json_bytes_length; eauto.
Qed.

Lemma encode_length : forall d v, length (encode d v) = dsize d.
Proof. intros d v. destruct d; cbn; reflexivity. Qed.
Lemma storage_to_bytes_length : forall d st, length (storage_to_bytes d st) = length st * dsize d.
Proof.
  intros d st. unfold storage_to_bytes. induction st as [|x st IH]; [reflexivity|]. cbn [flat_map length].
  rewrite app_length, encode_length, IH. lia.
Qed.
Lemma pdsize_core : forall d, pdsize (core_dtype_to_plugin d) = dsize d.
Proof. destruct d; reflexivity. Qed.
Lemma dsize_pos : forall d, 0 < dsize d.
Proof. destruct d; cbn; lia. Qed.

Lemma chunks_exact_length : forall A n (l : list A) k, 0 < n -> length l = k * n -> length (chunks_exact n l) = k.
Proof.
  intros A n l k Hn H. unfold chunks_exact.
  assert (G : forall f (l : list A) k, length l = k * n -> k <= f -> length (chunks_exact_fuel f n l) = k).
  { clear l k H. induction f as [|f IH]; intros l k H Hf.
    - cbn. lia.
    - cbn [chunks_exact_fuel]. destruct (Nat.ltb_spec (length l) n).
      + destruct k; [reflexivity|]. cbn in H. lia.
      + destruct k; [cbn in H; lia|]. cbn [length]. f_equal. apply IH; [|lia]. rewrite skipn_length. cbn in H. lia. }
  apply G; [exact H|]. nia.
Qed.

Lemma load_hdt_spec : forall path s d td, load_tensor_hdt read_hdt path s d = Some td ->
  td_shape td = s /\ td_dtype td = d /\ length (td_data td) = nelem s * pdsize d.
Proof.
  intros path s d td H. unfold load_tensor_hdt in H.
  destruct (read_hdt path) as [h|]; [|discriminate].
  unfold hdt_deserialize, t_from_bytes in H.
  destruct (length (hdt_data h) =? shape_size (hdt_shape h) * dsize (hdt_dtype h))%nat eqn:El; [|discriminate].
  cbn [negb tlay] in H. apply Nat.eqb_eq in El.
  change (lshape (from_shape (hdt_shape h))) with (hdt_shape h) in H.
  destruct (list_eqb (hdt_shape h) s) eqn:Es; [|discriminate]. apply list_eqb_eq in Es. cbn [negb] in H.
  destruct (pd_eqb (core_dtype_to_plugin (hdt_dtype h)) d) eqn:Ed; [|discriminate]. apply pd_eqb_eq in Ed. cbn [negb] in H.
  unfold t_to_bytes in H. cbn [tlay] in H. rewrite from_shape_contiguous in H.
  cbn [negb bind tstore] in H. inversion H; subst. cbn.
  repeat split; auto. rewrite storage_to_bytes_length, pdsize_core. f_equal.
  unfold bytes_to_storage. rewrite map_length. apply chunks_exact_length; [apply dsize_pos|exact El].
Qed.
End Inputs.
