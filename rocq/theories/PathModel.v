(** Names that become paths: the inputs of Runtime::run, the cache removed by `hodu clean`, the directory of a plugin.

    A path is its text; which file it leads to is found from the text alone, so there are no symbolic links, and the
    directories on the way exist.  The file system is the list of its files by their components from the root;
    directories are not kept, and so whether an emptied directory itself goes away is not modelled.  Unix only. *)
From Coq Require Import String Ascii List Bool Arith.
From Verif Require Import Base.
Import ListNotations.
Open Scope string_scope.
Open Scope list_scope.

Definition slash : ascii := "/"%char.
(** The text cut at every slash *)
Fixpoint split (s : string) : list string :=
  match s with
  | EmptyString => [""]
  | String c r => if Ascii.eqb c slash then "" :: split r
                  else match split r with h :: t => String c h :: t | [] => [] end
  end.
(** What the system makes of the components: nothing and "." stay, ".." goes up (at the root it stays), from the root *)
Definition step (at_ : list string) (c : string) : list string :=
  if (c =? "")%string || (c =? ".")%string then at_
  else if (c =? "..")%string then removelast at_ else at_ ++ [c].
Definition resolve (s : string) : list string := fold_left step (split s) [].

(** std::path::Path::join on Unix: an absolute path replaces the first *)
Definition is_absolute (s : string) : bool := match s with String c _ => Ascii.eqb c slash | EmptyString => false end.
Fixpoint ends_with_slash (s : string) : bool :=
  match s with
  | EmptyString => false
  | String c EmptyString => Ascii.eqb c slash
  | String _ r => ends_with_slash r
  end.
Definition join (dir name : string) : string :=
  (if is_absolute name then name
   else if (dir =? "") || ends_with_slash dir then dir ++ name else dir ++ "/" ++ name)%string.

(** Files *)
Definition files (B : Type) := list (list string * B).
Fixpoint same_path (p q : list string) : bool :=
  match p, q with [], [] => true | a :: p', b :: q' => (a =? b)%string && same_path p' q' | _, _ => false end.
Fixpoint starts_with (p q : list string) : bool :=
  match p, q with [], _ => true | a :: p', b :: q' => (a =? b)%string && starts_with p' q' | _ :: _, [] => false end.
Fixpoint read {B} (p : list string) (fs : files B) : option B :=
  match fs with [] => None | (q, b) :: r => if same_path p q then Some b else read p r end.
Definition write {B} (p : list string) (b : B) (fs : files B) : files B :=
  (p, b) :: filter (fun f => negb (same_path p (fst f))) fs.
(** Path::exists *)
Definition exists_ {B} (p : list string) (fs : files B) : bool := existsb (fun f => starts_with p (fst f)) fs.
(** std::fs::remove_dir_all: everything under the directory; a file is refused *)
Definition remove_dir_all {B} (p : list string) (fs : files B) : files B :=
  filter (fun f => negb (starts_with p (fst f)) || same_path p (fst f)) fs.

(** Runtime::run, crates/hodu_plugin_runtime/src/runtime.rs L149-163: each input is saved, and the plugin is given the
    names and paths.  [tmp] is std::env::temp_dir(), [B] the content of a file (hdt::save). *)
Definition input_path (tmp name : string) : string := join (join tmp "hodu_runtime") (name ++ ".hdt").
Fixpoint save_inputs {B} (tmp : string) (inputs : list (string * B)) (fs : files B) : files B :=
  match inputs with
  | [] => fs
  | (name, b) :: r => save_inputs tmp r (write (resolve (input_path tmp name)) b fs)
  end.
Definition tensor_inputs {B} (tmp : string) (inputs : list (string * B)) : list (string * string) :=
  map (fun i => (fst i, input_path tmp (fst i))) inputs.
(** What the plugin finds at the paths it is given *)
Definition plugin_reads {B} (given : list (string * string)) (fs : files B) : list (string * option B) :=
  map (fun i => (fst i, read (resolve (snd i)) fs)) given.

(** hodu-cli/src/commands/clean.rs L22-77: the files afterwards *)
Record clean_args := mkClean { dry_run : bool; backend : option string; all : bool }.
Definition clean_directory {B} (path : string) (dry : bool) (fs : files B) : files B :=
  if dry then fs else remove_dir_all (resolve path) fs.
Definition clean {B} (home : string) (a : clean_args) (fs : files B) : files B :=
  let hodu_dir := join home ".hodu" in
  if negb (exists_ (resolve hodu_dir) fs) then fs else
  let cache_dir := join hodu_dir "cache" in
  if all a then clean_directory hodu_dir (dry_run a) fs
  else match backend a with
  | Some b =>
    let backend_cache := join cache_dir b in
    if exists_ (resolve backend_cache) fs then clean_directory backend_cache (dry_run a) fs
    else
      let prefixed := join cache_dir ("hodu-backend-" ++ b ++ "-plugin")%string in
      if exists_ (resolve prefixed) fs then clean_directory prefixed (dry_run a) fs else fs
  | None => if exists_ (resolve cache_dir) fs then clean_directory cache_dir (dry_run a) fs else fs
  end.

(** hodu-cli/src/commands/plugin/install.rs L373-399: the binary and, if there is one, the manifest are copied into the
    directory named by the manifest.  [plugins_dir] is ~/.hodu/plugins (L543-549). *)
Definition install_files {B} (plugins_dir name binary : string) (content : B) (manifest : option B) (fs : files B) : files B :=
  let plugin_dir := join plugins_dir name in
  let fs := write (resolve (join plugin_dir binary)) content fs in
  match manifest with Some m => write (resolve (join plugin_dir "manifest.json")) m fs | None => fs end.
(** remove_plugin, hodu-cli/src/commands/plugin.rs L524-532, for a name found in the registry *)
Definition remove_files {B} (plugins_dir name : string) (fs : files B) : files B :=
  let plugin_dir := join plugins_dir name in
  if exists_ (resolve plugin_dir) fs then remove_dir_all (resolve plugin_dir) fs else fs.
(** The program started for a plugin: crates/hodu_plugin_runtime/src/backend.rs L106, format.rs L117 *)
Definition binary_of {B} (plugins_dir name binary : string) (fs : files B) : option B :=
  read (resolve (join (join plugins_dir name) binary)) fs.
