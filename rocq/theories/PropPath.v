(** C126: names given by a user, a manifest or a model stay in the directory they are joined to. *)
From Coq Require Import String Ascii List Bool.
From Verif Require Import Base PathModel PathSpec PathProofs.
Import ListNotations.
Open Scope string_scope.
Open Scope list_scope.

(** A name that is one component leads to the entry of that name in the directory. *)
Theorem C126_join_partial : forall dir name, plain name -> resolve (join dir name) = resolve dir ++ [name].
Proof. exact join_plain. Qed.
Print Assumptions C126_join_partial.

(** Inputs with different names without a slash: the plugin reads each input under its name, and no file outside
    the directory of the runtime changes. *)
Theorem C126_inputs_partial : forall (B : Type) tmp (inputs : list (string * B)) fs,
  NoDup (map fst inputs) -> (forall n, In n (map fst inputs) -> slash_free n) ->
  plugin_reads (tensor_inputs tmp inputs) (save_inputs tmp inputs fs) = map (fun i => (fst i, Some (snd i))) inputs /\
  (forall p, ~ in_dir (resolve tmp ++ ["hodu_runtime"]) p -> read p (save_inputs tmp inputs fs) = read p fs).
Proof. intros B tmp inputs fs D F. split; [now apply inputs_read|]. intros p N. now apply inputs_outside. Qed.
Print Assumptions C126_inputs_partial.

(** clean removes all of ~/.hodu, all of the cache, or the cache of one backend, and nothing else; a dry run nothing. *)
Theorem C126_dry_run : forall (B : Type) home backend all (fs : files B), clean home (mkClean true backend all) fs = fs.
Proof. intros. apply clean_dry. Qed.
Print Assumptions C126_dry_run.
Theorem C126_clean_all : forall (B : Type) home backend (fs : files B) f,
  In f (clean home (mkClean false backend true) fs) <-> In f fs /\ ~ in_dir (resolve home ++ [".hodu"]) (fst f).
Proof. intros. apply clean_all. Qed.
Print Assumptions C126_clean_all.
Theorem C126_clean_cache : forall (B : Type) home (fs : files B) f,
  In f (clean home (mkClean false None false) fs) <-> In f fs /\ ~ in_dir (resolve home ++ [".hodu"; "cache"]) (fst f).
Proof. intros. apply clean_cache. Qed.
Print Assumptions C126_clean_cache.
Theorem C126_clean_backend_partial : forall (B : Type) home b (fs : files B) f, plain b ->
  let dir n := resolve home ++ [".hodu"; "cache"; n] in
  In f (clean home (mkClean false (Some b) false) fs) <->
  In f fs /\ ~ in_dir (dir b) (fst f) /\
  ((forall g, In g fs -> fst g <> dir b /\ ~ in_dir (dir b) (fst g)) -> ~ in_dir (dir ("hodu-backend-" ++ b ++ "-plugin")%string) (fst f)).
Proof. intros. now apply clean_backend. Qed.
Print Assumptions C126_clean_backend_partial.

(** Plugins with plain names: installing writes to the directory of the plugin, what is started is what was
    installed, and removing takes away that directory and no other plugin. *)
Theorem C126_install_partial : forall (B : Type) dir name binary (c : B) manifest fs, plain name -> plain binary ->
  (binary <> "manifest.json" -> binary_of dir name binary (install_files dir name binary c manifest fs) = Some c) /\
  (forall p, ~ in_dir (resolve dir ++ [name]) p -> read p (install_files dir name binary c manifest fs) = read p fs).
Proof. intros. split; [intros; now apply installed|]. intros p N. now apply install_outside. Qed.
Print Assumptions C126_install_partial.
Theorem C126_remove_partial : forall (B : Type) dir name (fs : files B), plain name ->
  (forall f, In f (remove_files dir name fs) <-> In f fs /\ ~ in_dir (resolve dir ++ [name]) (fst f)) /\
  (forall other binary, plain other -> plain binary -> name <> other ->
     binary_of dir other binary (remove_files dir name fs) = binary_of dir other binary fs).
Proof. intros. split; [intros; now apply removed|]. intros. now apply other_plugin. Qed.
Print Assumptions C126_remove_partial.

(** A small home directory. *)
Definition home_files : files nat :=
  [(["home"; "u"; "notes"], 1); (["home"; "u"; ".hodu"; "plugins.json"], 2); (["home"; "u"; ".hodu"; "plugins"; "p"; "bin"], 3);
   (["home"; "u"; ".hodu"; "cache"; "cpu"; "x"], 4); (["home"; "u"; ".hodu"; "cache"; "hodu-backend-gpu-plugin"; "y"], 5)].

(** `clean --backend ..` takes away the plugins and the registry, an absolute name any directory, an empty name the
    caches of all backends. *)
Theorem C126_clean_refuted :
  map snd (clean "/home/u" (mkClean false (Some "..") false) home_files) = [1] /\
  map snd (clean "/home/u" (mkClean false (Some "/home/u") false) home_files) = [] /\
  map snd (clean "/home/u" (mkClean false (Some "../../..") false) home_files) = [] /\
  map snd (clean "/home/u" (mkClean false (Some "") false) home_files) = [1; 2; 3].
Proof. vm_compute. repeat split. Qed.
Print Assumptions C126_clean_refuted.

(** A manifest whose name goes up or is absolute has files written outside the plugins, over another program even; with
    an empty name, removing that plugin removes all plugins. *)
Theorem C126_manifest_refuted :
  read ["home"; "u"; "notes"] (install_files "/home/u/.hodu/plugins" "../.." "notes" 9 None home_files) = Some 9 /\
  read ["usr"; "bin"; "ls"] (install_files "/home/u/.hodu/plugins" "/usr/bin" "ls" 9 None home_files) = Some 9 /\
  binary_of "/home/u/.hodu/plugins" "p" "bin" (install_files "/home/u/.hodu/plugins" "./p" "bin" 9 None home_files) = Some 9 /\
  binary_of "/home/u/.hodu/plugins" "p" "bin" home_files = Some 3 /\
  binary_of "/home/u/.hodu/plugins" "p" "bin" (remove_files "/home/u/.hodu/plugins" "" home_files) = None.
Proof. vm_compute. repeat split. Qed.
Print Assumptions C126_manifest_refuted.

(** Two inputs of one name, or of two names for one file, are both read as the last; a name that goes up is written
    outside the directory. *)
Theorem C126_inputs_refuted :
  (let i := [("x", 1); ("x", 2)] in plugin_reads (tensor_inputs "/tmp" i) (save_inputs "/tmp" i []) = [("x", Some 2); ("x", Some 2)]) /\
  (let i := [("x", 1); ("./x", 2)] in plugin_reads (tensor_inputs "/tmp" i) (save_inputs "/tmp" i []) = [("x", Some 2); ("./x", Some 2)]) /\
  read ["home"; "u"; "w.hdt"] (save_inputs "/tmp" [("../../home/u/w", 1)] [(["home"; "u"; "w.hdt"], 7)]) = Some 1.
Proof. vm_compute. repeat split. Qed.
Print Assumptions C126_inputs_refuted.

(** All processes share the directory: whenever another run saves an input of the same name before the plugin reads, the
    plugin reads the tensor of the other run. *)
Theorem C126_shared_refuted : forall (B : Type) tmp name (mine theirs : B) fs,
  plugin_reads (tensor_inputs tmp [(name, mine)]) (save_inputs tmp [(name, theirs)] (save_inputs tmp [(name, mine)] fs)) = [(name, Some theirs)].
Proof. intros. unfold plugin_reads, tensor_inputs. cbn [map fst snd save_inputs]. rewrite read_write_same. reflexivity. Qed.
Print Assumptions C126_shared_refuted.

Example C126_ex :
  resolve (join "/home/u/.hodu/" "cache") = ["home"; "u"; ".hodu"; "cache"] /\ plain "gpu" /\
  map snd (clean "/home/u" (mkClean false (Some "gpu") false) home_files) = [1; 2; 3; 4] /\
  map snd (clean "/home/u" (mkClean false (Some "cpu") false) home_files) = [1; 2; 3; 5] /\
  map snd (clean "/home/u" (mkClean false None false) home_files) = [1; 2; 3] /\
  map snd (remove_files "/home/u/.hodu/plugins" "p" home_files) = [1; 2; 4; 5] /\
  (let i := [("x", 1); ("y", 2)] in plugin_reads (tensor_inputs "/tmp" i) (save_inputs "/tmp" i []) = [("x", Some 1); ("y", Some 2)]).
Proof.
  split; [reflexivity|]. split; [apply plain_dec_computes; try discriminate; reflexivity|]. vm_compute. repeat split.
Qed.
