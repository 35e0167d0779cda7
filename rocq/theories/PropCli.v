(** C58-C61: versions, devices, host patterns and inputs on the command line. *)
From Coq Require Import String Ascii.
From Coq Require Import List NArith ZArith Bool Lia.
From Verif Require Import Base IndexSpec LayoutModel KernelModel TensorModel EncodeModel RpcModel CliModel CliProofs CliProofs2.
Import ListNotations.
Local Open Scope string_scope.
Local Open Scope list_scope.

(** * C58: protocol compatibility *)

(** an equivalence on all strings *)
Theorem C58_equivalence :
  (forall v, is_protocol_compatible v v = true)
  /\ (forall v w, is_protocol_compatible v w = true -> is_protocol_compatible w v = true)
  /\ (forall u v w, is_protocol_compatible u v = true -> is_protocol_compatible v w = true ->
       is_protocol_compatible u w = true).
Proof.
  destruct compat_equiv as (R & S & T). repeat split; intros; rewrite ?compatible_iff in *; eauto.
Qed.
Print Assumptions C58_equivalence.

(** on versions [a.b.c], written in decimal: the same major, and below 1.0 the
    same minor *)
Theorem C58_versions : forall a b c a' b' c',
  (a < 2 ^ 32 /\ b < 2 ^ 32 /\ c < 2 ^ 32 /\ a' < 2 ^ 32 /\ b' < 2 ^ 32 /\ c' < 2 ^ 32)%N ->
  (is_protocol_compatible (semver a b c) (semver a' b' c') = true <-> a = a' /\ (a = 0%N -> b = b')).
Proof.
  intros a b c a' b' c' (Ha & Hb & Hc & Ha' & Hb' & Hc').
  rewrite compatible_iff. unfold read_version. rewrite !semver_parts by auto. reflexivity.
Qed.
Print Assumptions C58_versions.

(** Parts that are not numbers are skipped, so a malformed version is compatible
    with every version reading the same after the bad parts are dropped. *)
Theorem C58_malformed_refuted :
  is_protocol_compatible "abc" "0.0.7" = true /\ is_protocol_compatible "x.1.2" "1.0.0" = true
  /\ is_protocol_compatible "" "not a version" = true
  /\ is_protocol_compatible "4294967296.1.0" (semver 1 0 0) = true
  /\ (forall s, filter_parse (split_on "."%char s) = [] -> is_protocol_compatible s "" = true).
Proof.
  repeat split; try reflexivity. intros s H. apply compatible_iff. unfold read_version. rewrite H. split; reflexivity.
Qed.
Print Assumptions C58_malformed_refuted.
Example C58_example : semver 1 20 3 = "1.20.3" /\ is_protocol_compatible "1.20.3" "1.2.0" = true
  /\ is_protocol_compatible "0.20.3" "0.2.0" = false /\ is_protocol_compatible "0.2.3" "0.2.0" = true.
Proof. repeat split; reflexivity. Qed.

(** * C59: devices.  [lower] is [str::to_lowercase]: idempotent, and on ASCII
    text the usual one. *)

Theorem C59_idempotent : forall lower, (forall s, lower (lower s) = lower s) ->
  (forall s, is_ascii s -> lower s = to_lowercase s) ->
  forall s d, parse_device lower s = Some d -> parse_device lower d = Some d.
Proof. intros lower H1 H2. exact (parse_device_idem lower H1 H2). Qed.
Print Assumptions C59_idempotent.

Theorem C59_case : forall lower, (forall s, is_ascii s -> lower s = to_lowercase s) ->
  (forall a b, lower a = lower b -> parse_device lower a = parse_device lower b) /\
  (forall a b, is_ascii a -> is_ascii b -> to_lowercase a = to_lowercase b ->
     parse_device lower a = parse_device lower b).
Proof.
  intros lower H.
  assert (X : forall a b, lower a = lower b -> parse_device lower a = parse_device lower b)
    by (intros a b E; unfold parse_device; rewrite E; reflexivity).
  split; [exact X|]. intros a b Ha Hb E. apply X. rewrite !H; auto.
Qed.
Print Assumptions C59_case.

(** [cuda:N] and [cuda::N] give the same string, whose index is N *)
Theorem C59_cuda : forall lower, (forall s, is_ascii s -> lower s = to_lowercase s) ->
  forall idx n, parse_uint (2 ^ 64) idx = Some n ->
  exists d, parse_device lower ("cuda:" ^^ idx) = Some d /\ parse_device lower ("cuda::" ^^ idx) = Some d
    /\ parse_device_id d = Some n /\ device_type d = "cuda".
Proof.
  intros lower H idx n Hn. exists ("cuda::" ^^ idx).
  split; [eapply parse_cuda1; eauto|]. split; [eapply parse_cuda2; eauto|]. now apply device_id_cuda.
Qed.
Print Assumptions C59_cuda.
Theorem C59_cuda_number : forall lower, (forall s, is_ascii s -> lower s = to_lowercase s) ->
  forall n, (n < 2 ^ 64)%N ->
  parse_device lower ("cuda:" ^^ dec n) = Some ("cuda::" ^^ dec n)
  /\ parse_device lower ("cuda::" ^^ dec n) = Some ("cuda::" ^^ dec n)
  /\ parse_device_id ("cuda::" ^^ dec n) = Some n.
Proof.
  intros lower H n Hn. pose proof (parse_uint_dec (2 ^ 64) n Hn) as P.
  split; [eapply parse_cuda1; eauto|]. split; [eapply parse_cuda2; eauto|]. now apply device_id_cuda.
Qed.
Print Assumptions C59_cuda_number.

Lemma to_lowercase_idem : forall s, to_lowercase (to_lowercase s) = to_lowercase s.
Proof.
  induction s as [|c s IH]; cbn; [reflexivity|]. rewrite IH. f_equal.
  destruct c as [[] [] [] [] [] [] [] []]; reflexivity.
Qed.
(** the laws hold for ASCII lower-casing *)
Example C59_example :
  (forall s, to_lowercase (to_lowercase s) = to_lowercase s)
  /\ parse_device to_lowercase "CUDA:3" = Some "cuda::3" /\ parse_device to_lowercase "Cuda" = Some "cuda::0"
  /\ parse_device to_lowercase "rocm:1" = None /\ parse_device to_lowercase "cuda3" = None
  /\ parse_device to_lowercase "Metal" = Some "metal" /\ parse_device to_lowercase "npu::2" = Some "npu::2"
  /\ parse_uint (2 ^ 64) "007" = Some 7%N /\ parse_device_id "cuda::007" = Some 7%N.
Proof. split; [exact to_lowercase_idem|]. repeat split; reflexivity. Qed.

(** * C60: host patterns *)
Theorem C60_one_end : forall host p, no_char "*"%char p ->
  (host_matches_pattern host p = true <-> glob p host)
  /\ (host_matches_pattern host ("*" ^^ p) = true <-> glob ("*" ^^ p) host)
  /\ (host_matches_pattern host (p ^^ "*") = true <-> glob (p ^^ "*") host).
Proof.
  intros host p H. split; [now apply host_plain|]. split; [now apply host_prefix_star|now apply host_suffix_star].
Qed.
Print Assumptions C60_one_end.

(** a star at both ends: the second is taken literally *)
Theorem C60_both_ends_refuted :
  glob "*-apple-*" "aarch64-apple-darwin" /\ host_matches_pattern "aarch64-apple-darwin" "*-apple-*" = false
  /\ (forall host p, host_matches_pattern host ("*" ^^ p ^^ "*") = true <-> exists x, host = x ^^ p ^^ "*").
Proof.
  split; [|split; [reflexivity|]].
  - apply (glob_star "aarch64" "-apple-*" "-apple-darwin").
    repeat (constructor; [discriminate|]). apply (glob_star "darwin" "" ""). constructor.
  - intros host p. unfold host_matches_pattern. cbn [String.append].
    assert (E : (String "*" (p ^^ "*") =? "*") = false).
    { apply String.eqb_neq. intro E. inversion E as [E']. destruct p; discriminate. }
    rewrite E. cbn [strip_prefix]. rewrite Ascii.eqb_refl. apply ends_with_iff.
Qed.
Print Assumptions C60_both_ends_refuted.
Example C60_example :
  no_char "*"%char "-apple-darwin" /\ host_matches_pattern "aarch64-apple-darwin" "*-apple-darwin" = true
  /\ host_matches_pattern "x86_64-linux-gnu" "x86_64-*" = true /\ host_matches_pattern "x86_64-linux-gnu" "x86-*" = false.
Proof. cbn. repeat split; try reflexivity; discriminate. Qed.

(** * C61: inputs of run *)
Theorem C61_accepts : forall file_exists extension read_json read_hdt home join f32_bits f64_bits args specs,
  (exists m, parse_inputs file_exists extension read_json read_hdt home join f32_bits f64_bits args specs = Some m) <->
  (forall a, In a args -> exists name td,
     arg_ok file_exists extension read_json read_hdt home join f32_bits f64_bits specs a name td) /\
  (forall i, In i specs -> exists a td, In a args /\
     arg_ok file_exists extension read_json read_hdt home join f32_bits f64_bits specs a (in_name i) td).
Proof.
  intros fe ex rj rh home join f32 f64 args specs. split.
  - intros [m H]. apply parse_iff in H. destruct H as (kvs & F & -> & Hs). split.
    + intros a Ha. clear Hs. induction F as [|a' [k td] args kvs H F IH]; [destruct Ha|].
      destruct Ha as [->|Ha]; [cbn in H; eauto|auto].
    + intros i Hi. specialize (Hs i Hi). apply in_map_iff in Hs. destruct Hs as ([k td] & Ek & Hk). cbn in Ek. subst k.
      clear Hi. induction F as [|a' kv args kvs H F IH]; [destruct Hk|].
      destruct Hk as [->|Hk]; [cbn in H; exists a', td; split; [left|]; auto|].
      destruct (IH Hk) as (a & td' & Ha & Hok). exists a, td'. split; [right|]; auto.
  - intros [Ha Hs].
    assert (K : exists kvs, Forall2 (fun a kv => arg_ok fe ex rj rh home join f32 f64 specs a (fst kv) (snd kv)) args kvs).
    { clear Hs. induction args as [|a args IH]; [exists []; constructor|].
      destruct (Ha a (or_introl eq_refl)) as (k & td & Hk).
      destruct IH as [kvs F]; [intros b Hb; apply Ha; right; exact Hb|].
      exists ((k, td) :: kvs). constructor; auto. }
    destruct K as [kvs F]. exists (rev kvs). apply parse_iff. exists kvs. repeat split; auto.
    intros i Hi. destruct (Hs i Hi) as (a & td & Hin & Hok). clear Hs Ha Hi.
    induction F as [|a' [k td'] args kvs H F IH]; [destruct Hin|].
    destruct Hin as [->|Hin]; [|right; auto]. left. cbn.
    apply parse1_iff in H, Hok. cbn in H. congruence.
Qed.
Print Assumptions C61_accepts.

(** each given input has the tensor of the last argument naming it *)
Theorem C61_last_wins : forall file_exists extension read_json read_hdt home join f32_bits f64_bits args specs m k td,
  parse_inputs file_exists extension read_json read_hdt home join f32_bits f64_bits args specs = Some m ->
  in_get m k = Some td ->
  exists before a after, args = before ++ a :: after
    /\ arg_ok file_exists extension read_json read_hdt home join f32_bits f64_bits specs a k td
    /\ forall b td', In b after -> ~ arg_ok file_exists extension read_json read_hdt home join f32_bits f64_bits specs b k td'.
Proof.
  intros fe ex rj rh home join f32 f64 args specs m k td H G. apply parse_iff in H.
  destruct H as (kvs & F & -> & _). apply in_get_last in G. destruct G as (pre & post & -> & Hn).
  apply Forall2_app_inv_r in F. destruct F as (l1 & l2 & _ & F & ->).
  inversion F as [|a kv l2' post' Hok F' E1 E2]; subst. exists l1, a, l2'. split; [reflexivity|]. split; [exact Hok|].
  intros b td' Hb Hok'. clear F Hok. induction F' as [|a' [k' td''] l2 post H F' IH]; [destruct Hb|].
  cbn in Hn. destruct Hb as [->|Hb]; [|apply IH; tauto].
  apply parse1_iff in H, Hok'. cbn in H. rewrite H in Hok'. inversion Hok'. tauto.
Qed.
Print Assumptions C61_last_wins.

(** what is loaded has the declared shape and dtype; from an .hdt file it also has
    as many bytes as they require *)
Theorem C61_loaded_partial : forall extension read_json read_hdt f32_bits f64_bits path s d td,
  load_tensor_file extension read_json read_hdt f32_bits f64_bits path s d = Some td ->
  td_shape td = s /\ td_dtype td = d
  /\ (extension path = "hdt" -> length (td_data td) = nelem s * pdsize d)
  /\ (extension path <> "hdt" -> exists kvs arr, read_json path = Some (JObj kvs) /\ get "data" kvs = Some (JArr arr)
        /\ length (td_data td) = length arr * pdsize d).
Proof.
  intros ex rj rh f32 f64 path s d td H. unfold load_tensor_file in H.
  destruct (String.eqb_spec (ex path) "hdt") as [E|E].
  - apply load_hdt_spec in H. destruct H as (H1 & H2 & H3). repeat split; auto. congruence.
  - destruct (ex path =? "json"); [|discriminate].
    apply load_json_spec in H. destruct H as (H1 & H2 & kvs & arr & K1 & K2 & _ & K3).
    repeat split; auto; [congruence|]. intros _. exists kvs, arr. auto.
Qed.
Print Assumptions C61_loaded_partial.

(** A .json input may hold any number of elements, and 64-bit integers are cut to
    32 bits. *)
Definition bad_json (p : string) : option json :=
  Some (JObj [("shape", JArr [JInt 2]); ("dtype", JStr "i32"); ("data", JArr [JInt 1; JInt 2; JInt (2 ^ 32 + 3)])]).
Theorem C61_json_size_refuted :
  exists td, parse_inputs (fun _ => true) (fun _ => "json") bad_json (fun _ => None) None String.append
               (fun _ => None) (fun _ => None) ["x=a.json"] [mkIn "x" [2] I32]
             = Some [("x", td)]
    /\ td_shape td = [2] /\ length (td_data td) = 12 /\ 12 <> nelem [2] * pdsize PI32
    /\ td_data td = [1; 0; 0; 0; 2; 0; 0; 0; 3; 0; 0; 0]%Z.
Proof. eexists. repeat split; try reflexivity. discriminate. Qed.
Print Assumptions C61_json_size_refuted.
Example C61_example :
  let h p := if p =? "b.hdt" then Some (mkHdt [2] U8 [7; 8]%Z) else Some (mkHdt [2] U8 [1; 2]%Z) in
  parse_inputs (fun _ => true) (fun _ => "hdt") (fun _ => None) h (Some "/root") (fun a b => a ^^ "/" ^^ b)
    (fun _ => None) (fun _ => None) ["x=a.hdt"; "y=~/c=d.hdt"; "x=b.hdt"] [mkIn "x" [2] U8; mkIn "y" [2] U8]
  = Some [("x", mkTD [7; 8]%Z [2] PU8); ("y", mkTD [1; 2]%Z [2] PU8); ("x", mkTD [1; 2]%Z [2] PU8)]
  /\ parse_inputs (fun _ => true) (fun _ => "hdt") (fun _ => None) h None String.append
    (fun _ => None) (fun _ => None) ["x=a.hdt"] [mkIn "x" [2] U8; mkIn "y" [2] U8] = None
  /\ parse_inputs (fun _ => true) (fun _ => "hdt") (fun _ => None) h None String.append
    (fun _ => None) (fun _ => None) ["x=a.hdt"; "z=a.hdt"] [mkIn "x" [2] U8] = None.
Proof. repeat split; reflexivity. Qed.
