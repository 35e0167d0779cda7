(** C127-C130: installing, choosing and updating plugins. *)
From Coq Require Import String Ascii.
From Coq Require Import List NArith Bool Lia Sorting.Sorted.
From Verif Require Import Base CliModel CliProofs.
From Verif Require Import RegistryModel InstallModel InstallSpec InstallProofs.
Import ListNotations.
Local Open Scope string_scope.
Local Open Scope list_scope.

(** * C127: an installed plugin offers exactly what its manifest declares *)

(** Running and building: offered exactly if declared, for the declared devices. *)
Theorem C127_backend : forall host package m,
  let t := type_of host package m in let c := caps_of host package m in
  (offers t c Run <-> declares m Run) /\ (offers t c Build <-> declares m Build) /\
  (t = Backend -> devices c = texts (m_devices m)).
Proof. exact backend_offers. Qed.
Print Assumptions C127_backend.

(** Model formats when nothing is declared for a backend, tensor formats when nothing is declared for models either. *)
Theorem C127_formats_partial : forall host package m, no_backend m ->
  let t := type_of host package m in let c := caps_of host package m in
  (forall a, a = LoadModel \/ a = SaveModel -> declares m a -> offers t c a /\ model_extensions c = texts (m_exts m)) /\
  (no_model m -> forall a, a = LoadTensor \/ a = SaveTensor -> declares m a -> offers t c a /\ tensor_extensions c = texts (m_exts m)).
Proof.
  intros host package m N t c. destruct (model_offers host package m N) as [A B]. split.
  - intros a [-> | ->]; auto.
  - intros M. destruct (tensor_offers host package m N M) as [C D]. intros a [-> | ->]; auto.
Qed.
Print Assumptions C127_formats_partial.

(** Nothing is offered that is not declared, if anything known is declared. *)
Theorem C127_sound_partial : forall host package m a,
  (exists c, declared m c /\ is_backend_name c) \/ (exists b, declares m b) ->
  offers (type_of host package m) (caps_of host package m) a -> declares m a.
Proof. exact offers_sound. Qed.
Print Assumptions C127_sound_partial.

Definition both : manifest := mkManifest (Some "hodu-format-npy") None None
  (Some [Some "format.load_model"; Some "format.load_tensor"]) None (Some [Some "npy"]).
Definition backend_and_format : manifest := mkManifest (Some "x") None None
  (Some [Some "backend.run"; Some "format.load_model"]) (Some [Some "cpu"]) (Some [Some "onnx"]).
Definition nothing : manifest := mkManifest (Some "y") None None None None (Some [Some "onnx"]).
(** A plugin for models and tensors is not used for tensors, nor a backend for its formats; one that declares nothing is
    taken to load models. *)
Theorem C127_refuted :
  (declares both LoadTensor /\ ~ offers (type_of "1.0.0" "p" both) (caps_of "1.0.0" "p" both) LoadTensor /\
   forall lower, tensor_by_ext lower "npy" [entry_of "1.0.0" "p" both CratesIo] = None) /\
  (declares backend_and_format LoadModel /\
   ~ offers (type_of "1.0.0" "p" backend_and_format) (caps_of "1.0.0" "p" backend_and_format) LoadModel) /\
  (~ declares nothing LoadModel /\ offers (type_of "1.0.0" "p" nothing) (caps_of "1.0.0" "p" nothing) LoadModel).
Proof.
  split; [|split].
  - split; [|split].
    + eexists. split; [reflexivity|]. right. now left.
    + intros [H _]. discriminate H.
    + intros lower. reflexivity.
  - split; [|intros [H _]; discriminate H]. eexists. split; [reflexivity|]. right. now left.
  - split; [intros [l [H _]]; discriminate H|]. split; reflexivity.
Qed.
Print Assumptions C127_refuted.

Definition npy : manifest := mkManifest (Some "hodu-format-npy") (Some "0.2.0") None
  (Some [Some "format.load_tensor"; None; Some "format.save_tensor"]) None (Some [Some "npy"; Some "npz"]).
(** the entry has the name and the version of the manifest; without a name it has that of the package, and without a
    version it is 0.1.0 *)
Theorem C127_identity : forall host package m src,
  (forall n, m_name m = Some n -> p_name (entry_of host package m src) = n) /\
  (m_name m = None -> p_name (entry_of host package m src) = package) /\
  (forall v, m_version m = Some v -> p_version (entry_of host package m src) = v) /\
  (m_version m = None -> p_version (entry_of host package m src) = "0.1.0") /\
  p_source (entry_of host package m src) = src /\ p_enabled (entry_of host package m src) = true.
Proof.
  intros host package m src. unfold entry_of, parse_manifest.
  destruct (any_cap _ m), (has_cap "format.load_model" m || has_cap "format.save_model" m)%bool,
    (has_cap "format.load_tensor" m || has_cap "format.save_tensor" m)%bool; cbn;
  (split; [intros n ->; reflexivity|]); (split; [intros ->; reflexivity|]); (split; [intros v ->; reflexivity|]);
  (split; [intros ->; reflexivity|]); split; reflexivity.
Qed.
Print Assumptions C127_identity.

Example C127_ex :
  no_backend npy /\ no_model npy /\ declares npy SaveTensor /\ offers (type_of "1.0.0" "p" npy) (caps_of "1.0.0" "p" npy) SaveTensor /\
  tensor_by_ext (fun s => s) ".npz" [entry_of "1.0.0" "p" npy CratesIo] = Some (entry_of "1.0.0" "p" npy CratesIo).
Proof.
  assert (D : forall c, declared npy c -> c = "format.load_tensor" \/ c = "format.save_tensor").
  { intros c [l [E I]]. injection E as <-. cbn in I. destruct I as [I|[I|[I|[]]]]; [left|discriminate I|right]; congruence. }
  split; [|split; [|split; [|split]]].
  - intros c Dc [r R]. destruct (D c Dc) as [-> | ->]; discriminate R.
  - split; intros H; destruct (D _ H) as [E|E]; discriminate E.
  - eexists. split; [reflexivity|]. right. right. now left.
  - split; reflexivity.
  - reflexivity.
Qed.

(** * C128: a command starts only an enabled plugin that can do what it is started for *)

(** Every plugin that is started is installed and enabled. *)
Theorem C128_enabled : forall lower r p,
  (exists name device, run_backend lower name device r = Ok p) \/ (exists name device, build_backend lower name device r = Ok p) \/
  (exists ext, model_reader lower ext r = Ok p) \/ (exists pick can, convert_with pick can r = Ok p) ->
  In p r /\ p_enabled p = true.
Proof. exact started_enabled. Qed.
Print Assumptions C128_enabled.

(** build starts a builder; chosen by device it is a backend for the device, and one is found if there is any. *)
Theorem C128_build : forall lower r, NoDup (map p_name r) ->
  (forall name device p, build_backend lower name device r = Ok p -> builder (p_caps p) = Some true) /\
  (forall device p, build_backend lower None device r = Ok p ->
     p_type p = Backend /\ builder (p_caps p) = Some true /\ exists d, In d (devices (p_caps p)) /\ lower d = lower device) /\
  (forall device q d, In q r -> p_enabled q = true -> p_type q = Backend -> builder (p_caps q) = Some true ->
     In d (devices (p_caps q)) -> lower d = lower device -> exists p, build_backend lower None device r = Ok p).
Proof.
  intros lower r D. split; [intros; eapply build_builds; eassumption|]. split; [intros; eapply build_by_device; eassumption|].
  intros. eapply build_finds; eassumption.
Qed.
Print Assumptions C128_build.

(** convert starts a plugin only for what it declares. *)
Theorem C128_convert : forall lower r e can p, NoDup (map p_name r) ->
  convert_with (model_by_ext lower e) can r = Ok p \/ convert_with (tensor_by_ext lower e) can r = Ok p -> can (p_caps p) = Some true.
Proof. exact convert_can. Qed.
Print Assumptions C128_convert.

(** run by device starts a backend for the device; it can run if all backends can.  A model is read by a plugin for its
    extension. *)
Theorem C128_run_partial : forall lower r, NoDup (map p_name r) ->
  (forall device p, run_backend lower None device r = Ok p ->
     p_type p = Backend /\ exists d, In d (devices (p_caps p)) /\ lower d = lower device) /\
  ((forall q, In q r -> p_type q = Backend -> runner (p_caps q) = Some true) ->
   forall device p, run_backend lower None device r = Ok p -> offers (p_type p) (p_caps p) Run) /\
  (forall e p, model_reader lower e r = Ok p ->
     p_type p = ModelFormat /\ exists x, In x (model_extensions (p_caps p)) /\ norm_ext lower x = norm_ext lower e).
Proof.
  intros lower r D. split; [intros; eapply run_by_device; eassumption|]. split; [intros; eapply run_runs; eassumption|].
  intros. eapply reader_type; eassumption.
Qed.
Print Assumptions C128_run_partial.

Definition builder_cpu := mkPlugin "aot-cpu" "1.0.0" Backend (backend false true ["cpu"]) CratesIo true.
Definition runner_cpu := mkPlugin "interp" "1.0.0" Backend (backend true false ["cpu"]) CratesIo true.
Definition cuda_plugin := mkPlugin "gpu" "1.0.0" Backend (backend true false ["cuda"]) CratesIo true.
Definition onnx_writer := mkPlugin "onnx-out" "1.0.0" ModelFormat (model_format false true ["onnx"]) CratesIo true.
Definition onnx_reader := mkPlugin "onnx-in" "1.0.0" ModelFormat (model_format true false ["onnx"]) CratesIo true.
(** run takes the first backend for the device even if it only builds and another could run, and any plugin given by
    name; run and build have a model read by a plugin that only writes; convert fails although a second plugin could
    read. *)
Theorem C128_run_refuted : forall lower,
  run_backend lower None "cpu" [builder_cpu; runner_cpu] = Ok builder_cpu /\
  run_backend lower (Some "onnx-out") "cpu" [onnx_writer] = Ok onnx_writer /\
  model_reader lower "onnx" [onnx_writer; onnx_reader] = Ok onnx_writer /\
  convert_with (model_by_ext lower "onnx") load_model [onnx_writer; onnx_reader] = Err EInternal.
Proof.
  intros lower. unfold run_backend, by_device, model_reader, convert_with, model_by_ext, enabled_of, has_device, has_ext. cbn.
  rewrite !String.eqb_refl. cbn. repeat split.
Qed.
Print Assumptions C128_run_refuted.

(** A backend that declares "cuda" is never found for a CUDA device: the command line turns it into "cuda::0". *)
Theorem C128_cuda_refuted : let lower s := s in
  parse_device lower "cuda" = Some "cuda::0" /\ run_backend lower None "cuda::0" [cuda_plugin] = Err EInternal /\
  run_backend lower None "cuda" [cuda_plugin] = Ok cuda_plugin.
Proof. vm_compute. repeat split. Qed.
Print Assumptions C128_cuda_refuted.

Example C128_ex : let lower s := s in
  NoDup (map p_name [runner_cpu; builder_cpu; onnx_reader]) /\
  run_backend lower None "cpu" [runner_cpu; builder_cpu; onnx_reader] = Ok runner_cpu /\
  build_backend lower None "cpu" [runner_cpu; builder_cpu; onnx_reader] = Ok builder_cpu /\
  build_backend lower (Some "cpu") "cpu" [runner_cpu; builder_cpu; onnx_reader] = Ok builder_cpu /\
  run_backend lower (Some "interp") "cpu" [mkPlugin "interp" "1.0.0" Backend (backend true false ["cpu"]) CratesIo false] = Err EInternal /\
  (let p := mkPlugin "hodu-backend-fast" "1.0.0" Backend (backend true false ["cpu"]) CratesIo true in
   run_backend lower (Some "fast") "cpu" [runner_cpu; p] = Ok p) /\
  convert_with (model_by_ext lower "onnx") load_model [runner_cpu; builder_cpu; onnx_reader] = Ok onnx_reader.
Proof.
  split; [|vm_compute; repeat split]. repeat constructor; cbn; intros H; repeat (destruct H as [H|H]; [discriminate H|]); exact H.
Qed.

(** * C129: the version installed is compatible and the newest, and updating does not go back *)

(** The check of a plugin with a version of three numbers: same major, minor not above the host's. *)
Theorem C129_check_partial : forall a b c a' b' c', (a < 2 ^ 32)%N -> (b < 2 ^ 32)%N -> (c < 2 ^ 32)%N ->
  (a' < 2 ^ 32)%N -> (b' < 2 ^ 32)%N -> (c' < 2 ^ 32)%N ->
  (version_accepted (semver a b c) (semver a' b' c') = true <-> a' = a /\ (b' <= b)%N).
Proof. exact accepted_semver. Qed.
Print Assumptions C129_check_partial.

(** Without a version, or with "latest", the first listed version for the host's major.minor is taken; it is the newest if
    the versions are listed from the newest, whatever newer means. *)
Theorem C129_latest_partial : forall host versions requested t, requested = None \/ requested = Some "latest" ->
  (choose_tag host versions None requested = Ok (Some t) <->
   exists pre v post, versions = pre ++ v :: post /\ v_tag v = t /\ v_plugin v = host_major_minor host /\
     Forall (fun w => v_plugin w <> host_major_minor host) pre) /\
  (forall newer : version_entry -> version_entry -> Prop, StronglySorted newer versions ->
   choose_tag host versions None requested = Ok (Some t) ->
   exists v, In v versions /\ v_tag v = t /\ v_plugin v = host_major_minor host /\
     forall w, In w versions -> v_plugin w = host_major_minor host -> w = v \/ newer v w).
Proof. intros host versions requested t R. split; [now apply latest_spec|]. intros newer S H. eapply latest_newest; eassumption. Qed.
Print Assumptions C129_latest_partial.
Theorem C129_major_minor : forall a b c, host_major_minor (semver a b c) = (dec a ++ "." ++ dec b)%string.
Proof. exact host_semver. Qed.
Print Assumptions C129_major_minor.

(** Updating leaves a plugin as it is or reinstalls it; it keeps its source if the official registry has no version for
    this host. *)
Theorem C129_update_partial : forall host package official git m p,
  (update_action host official p = AlreadyLatest \/ update_action host official p = Skipped ->
   update_entry host package official git m p = p) /\
  ((forall versions, official = Some versions -> forall v, In v versions -> v_plugin v <> host_major_minor host) ->
   p_source (update_entry host package official git m p) = p_source p) /\
  (forall v, update_action host official p = FromRegistry v ->
   p_source (update_entry host package official git m p) = Git git (Some (v_tag v)) None).
Proof.
  intros. split; [now apply update_kept|]. split; [now apply update_source|].
  intros v U. unfold update_entry. rewrite U. unfold entry_of. destruct (parse_manifest host package m) as [[[[a b] c] d] e]. reflexivity.
Qed.
Print Assumptions C129_update_partial.

(** Versions listed from the oldest: the oldest is installed.  A version of a lower minor is refused here though
    the check accepts it; a version asked for is taken whatever its protocol. *)
Theorem C129_latest_refuted :
  choose_tag "1.2.0" [mkV "0.1.0" "v0.1.0" "1.2"; mkV "0.9.0" "v0.9.0" "1.2"] None None = Ok (Some "v0.1.0") /\
  (choose_tag "1.2.0" [mkV "0.1.0" "v0.1.0" "1.1"] None None = Err EInternal /\ version_accepted "1.2.0" "1.1.0" = true) /\
  choose_tag "1.2.0" [mkV "0.1.0" "v0.1.0" "7.0"] None (Some "0.1.0") = Ok (Some "v0.1.0").
Proof. vm_compute. repeat split. Qed.
Print Assumptions C129_latest_refuted.

(** A version that is not two numbers or more is not checked. *)
Theorem C129_check_refuted :
  version_accepted "1.2.0" "9" = true /\ version_accepted "1.2.0" "v9.0.0" = false /\ version_accepted "1.2.0" "v9.x.0" = true /\
  version_accepted "1.2.0" "" = true /\ version_accepted "1.2.0" "v7.1.2" = true.
Proof. vm_compute. repeat split. Qed.
Print Assumptions C129_check_refuted.

(** Updating replaces a newer version by the listed one, a plugin of one's own by the official one of the same name, and
    turns every plugin it reinstalls on. *)
Definition official := Some [mkV "1.0.0" "v1.0.0" "1.2"].
Theorem C129_update_refuted :
  (let p := mkPlugin "hodu-backend-cpu" "2.0.0" Backend (backend true true ["cpu"]) (Git "g" (Some "v2.0.0") None) true in
   update_action "1.2.0" official p = FromRegistry (mkV "1.0.0" "v1.0.0" "1.2")) /\
  (let p := mkPlugin "hodu-backend-cpu" "2.0.0" Backend (backend true true ["cpu"]) (Local "/home/u/mine") true in
   update_action "1.2.0" official p = FromRegistry (mkV "1.0.0" "v1.0.0" "1.2")) /\
  (forall host package off git m p, update_action host off p <> AlreadyLatest -> update_action host off p <> Skipped ->
   p_enabled (update_entry host package off git m p) = true).
Proof. split; [reflexivity|]. split; [reflexivity|]. intros. now apply update_enables. Qed.
Print Assumptions C129_update_refuted.

Example C129_ex :
  choose_tag "1.2.0" [mkV "0.9.0" "v0.9.0" "1.3"; mkV "0.8.0" "v0.8.0" "1.2"; mkV "0.7.0" "v0.7.0" "1.2"] None None = Ok (Some "v0.8.0") /\
  name_and_version "cpu@latest" = ("cpu", Some "latest") /\ semver 1 2 0 = "1.2.0" /\
  version_accepted "1.2.0" "1.3.0" = false /\ version_accepted "1.2.0" "1.0.9" = true /\
  update_action "1.2.0" official (mkPlugin "p" "1.0.0" Backend (backend true true ["cpu"]) CratesIo false) = AlreadyLatest.
Proof. vm_compute. repeat split. Qed.

(** * C130: the package name read from Cargo.toml *)

(** The line name = "x" in the section [package] is read as x, whatever is before and after. *)
Theorem C130_name_partial : forall pre mid post x, package_name x ->
  Forall (fun l => ~ begins l "[package]") pre -> Forall (fun l => ~ begins l "[" /\ ~ begins l "name") mid ->
  parse_package_name (pre ++ "[package]" :: mid ++ ("name = " ++ quoted x)%string :: post) = Some x.
Proof. exact package_name_read. Qed.
Print Assumptions C130_name_partial.

(** A comment after the name becomes part of it, a comment after [package] hides the section, and another key that begins
    with name is read as the name. *)
Theorem C130_refuted :
  parse_package_name ["[package]"; ("name = " ++ quoted "p" ++ " # the name")%string] = Some ("p" ++ String "034" " # the name")%string /\
  parse_package_name ["[package] # here"; ("name = " ++ quoted "p")%string] = None /\
  parse_package_name ["[package]"; "names.x = 1"; ("name = " ++ quoted "p")%string] = Some "1".
Proof. vm_compute. repeat split. Qed.
Print Assumptions C130_refuted.

Example C130_ex :
  package_name "hodu-backend_cpu2" /\
  parse_package_name ["[workspace]"; ("name = " ++ quoted "w")%string; "  [package]  "; ("version = " ++ quoted "1")%string;
    "   name='hodu-backend_cpu2'"; "[lib]"] = Some "hodu-backend_cpu2".
Proof.
  split; [|vm_compute; reflexivity]. split; [discriminate|].
  apply Forall_forall. intros c I. cbn in I. unfold name_char.
  repeat (destruct I as [<-|I]; [cbn; lia|]). destruct I.
Qed.
