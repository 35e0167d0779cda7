(** Installing, updating and choosing plugins: hodu-cli/src/commands/plugin/install.rs and update.rs, and the choice of a
    plugin in commands/run.rs, build.rs, convert.rs.

    Simplifications: fetching, cloning, building and copying succeed; [host] is PLUGIN_VERSION (hodu_plugin/src/lib.rs
    L18); error values carry no text; an entry keeps the fields used here; [str::to_lowercase] is a parameter.
    A value of the manifest that is not a text is [None]. *)
From Coq Require Import String Ascii.
From Coq Require Import List NArith Bool.
From Verif Require Import Base CliModel.
From Verif Require Import RegistryModel.
Import ListNotations.
Local Open Scope string_scope.
Local Open Scope list_scope.

(** crates/hodu_plugin_runtime/src/types.rs L53-138 *)
Record capabilities := mkCaps {
  runner : option bool; builder : option bool; devices : list string;
  load_model : option bool; save_model : option bool; load_tensor : option bool; save_tensor : option bool;
  model_extensions : list string; tensor_extensions : list string }.
Definition backend (r b : bool) (ds : list string) : capabilities :=
  mkCaps (Some r) (Some b) ds None None None None [] [].
Definition model_format (l s : bool) (es : list string) : capabilities :=
  mkCaps None None [] (Some l) (Some s) None None es [].
Definition tensor_format (l s : bool) (es : list string) : capabilities :=
  mkCaps None None [] None None (Some l) (Some s) [] es.

(** manifest.json: the fields parse_manifest looks at; [m_caps], [m_devices], [m_exts] are [as_array] of the value, each
    element its [as_str] *)
Record manifest := mkManifest {
  m_name : option string; m_version : option string; m_plugin_version : option string;
  m_caps : option (list (option string)); m_devices : option (list (option string)); m_exts : option (list (option string)) }.
Definition texts (l : option (list (option string))) : list string :=
  match l with Some l => flat_map (fun v => match v with Some s => [s] | None => [] end) l | None => [] end.
Definition any_cap (f : string -> bool) (m : manifest) : bool := existsb f (texts (m_caps m)).
Definition has_cap (c : string) (m : manifest) : bool := any_cap (String.eqb c) m.
Definition or_else {A} (o : option A) (d : A) : A := match o with Some a => a | None => d end.
(** install.rs L447-537 *)
Definition parse_manifest (host package : string) (m : manifest)
    : string * string * string * plugin_type * capabilities :=
  let name := or_else (m_name m) package in
  let version := or_else (m_version m) "0.1.0" in
  let plugin_version := or_else (m_plugin_version m) host in
  let is_backend := any_cap (fun s => starts_with s "backend.") m in
  let has_model_caps := has_cap "format.load_model" m || has_cap "format.save_model" m in
  let has_tensor_caps := has_cap "format.load_tensor" m || has_cap "format.save_tensor" m in
  let extensions := texts (m_exts m) in
  let '(t, c) :=
    if is_backend then (Backend, backend (has_cap "backend.run" m) (has_cap "backend.build" m) (texts (m_devices m)))
    else if has_model_caps then
      (ModelFormat, model_format (has_cap "format.load_model" m) (has_cap "format.save_model" m) extensions)
    else if has_tensor_caps then
      (TensorFormat, tensor_format (has_cap "format.load_tensor" m) (has_cap "format.save_tensor" m) extensions)
    else (ModelFormat, model_format true false extensions) in
  (name, version, plugin_version, t, c).

(** install.rs L333-356: [true] if the plugin is not refused *)
Definition version_accepted (host plugin : string) : bool :=
  match filter_parse (split_on "."%char host), filter_parse (split_on "."%char plugin) with
  | h0 :: h1 :: _, p0 :: p1 :: _ => (h0 =? p0)%N && negb (h1 <? p1)%N
  | _, _ => true
  end.

(** The official registry, install.rs L17-41 *)
Record version_entry := mkV { v_version : string; v_tag : string; v_plugin : string }.
(** L80-86, update.rs L50-55 *)
Definition host_major_minor (host : string) : string :=
  match split_on "."%char host with a :: b :: _ => (a ++ "." ++ b)%string | _ => host end.
(** L49-56 *)
Definition name_and_version (s : string) : string * option string :=
  match split_once "@"%char s with Some (n, v) => (n, Some v) | None => (s, None) end.
(** L88-146: the tag to check out *)
Definition choose_tag (host : string) (versions : list version_entry) (tag_override requested : option string)
    : outcome (option string) :=
  let compatible := filter (fun v => (v_plugin v =? host_major_minor host)%string) versions in
  let latest := match compatible with v :: _ => Ok (Some (v_tag v)) | [] => Err EInternal end in
  match tag_override with
  | Some t => Ok (Some t)
  | None =>
    match requested with
    | Some ver =>
      if (ver =? "latest")%string then latest
      else match find (fun v => (v_version v =? ver)%string) versions with
           | Some v => Ok (Some (v_tag v))
           | None => Err EInternal
           end
    | None => latest
    end
  end.

(** types.rs L6-37 and L140-156 *)
Inductive source := CratesIo | Git (url : string) (tag subdir : option string) | Local (path : string).
Record plugin := mkPlugin {
  p_name : string; p_version : string; p_type : plugin_type; p_caps : capabilities; p_source : source; p_enabled : bool }.
(** The entry that install_from_path makes (L416-430) of a manifest and a source *)
Definition entry_of (host package : string) (m : manifest) (src : source) : plugin :=
  let '(name, version, _, t, c) := parse_manifest host package m in mkPlugin name version t c src true.

(** update.rs L43-91: what is done for one installed plugin.  [official] gives the versions the official registry lists
    for the name, if it could be fetched and has the name. *)
Inductive action := FromRegistry (v : version_entry) | AlreadyLatest | FromGit (tag : option string) | FromPath (path : string) | Skipped.
Definition update_action (host : string) (official : option (list version_entry)) (p : plugin) : action :=
  let fallback := match p_source p with Git _ tag _ => FromGit tag | Local path => FromPath path | CratesIo => Skipped end in
  match official with
  | Some versions =>
    match find (fun v => (v_plugin v =? host_major_minor host)%string) versions with
    | Some latest => if negb (v_version latest =? p_version p)%string then FromRegistry latest else AlreadyLatest
    | None => fallback
    end
  | None => fallback
  end.
(** The entry afterwards: what was installed is the manifest [m] that the action leads to *)
Definition update_entry (host package : string) (official : option (list version_entry)) (git : string) (m : manifest)
    (p : plugin) : plugin :=
  match update_action host official p with
  | FromRegistry v => entry_of host package m (Git git (Some (v_tag v)) None)
  | FromGit _ | FromPath _ => entry_of host package m (p_source p)
  | AlreadyLatest | Skipped => p
  end.

(** * Choosing a plugin *)
Section Choose.
Variable lower : string -> string.
Definition plugins := list plugin.
(** registry.rs L89-92, L118-154, L198-228 *)
Definition find_name (n : string) (r : plugins) : option plugin := find (fun p => (p_name p =? n)%string) r.
Definition enabled_of (t : plugin_type) (r : plugins) : plugins := filter (fun p => ptype_eqb (p_type p) t && p_enabled p) r.
Definition has_device (d : string) (p : plugin) : bool := existsb (fun x => (lower x =? d)%string) (devices (p_caps p)).
Definition by_device (device : string) (r : plugins) : option plugin := find (has_device (lower device)) (enabled_of Backend r).
Definition has_ext (e : string) (l : list string) : bool :=
  existsb (fun x => (norm_ext lower x =? norm_ext lower e)%string) l.
Definition model_by_ext (e : string) (r : plugins) : option plugin :=
  find (fun p => has_ext e (model_extensions (p_caps p))) (enabled_of ModelFormat r).
Definition tensor_by_ext (e : string) (r : plugins) : option plugin :=
  find (fun p => has_ext e (tensor_extensions (p_caps p))) (enabled_of TensorFormat r).
Definition flag (o : option bool) : bool := or_else o false.

(** PluginManager::get_plugin, plugins/process.rs L66-94: the plugin that is started *)
Definition get_plugin (n : string) (r : plugins) : outcome plugin :=
  match find_name n r with
  | Some p => if p_enabled p then Ok p else Err EInternal
  | None => Err EInternal
  end.
(** run.rs L111-112, L411-432; [device] has been through parse_device *)
Definition run_backend (name : option string) (device : string) (r : plugins) : outcome plugin :=
  match name with
  | Some n =>
    match find_name n r with
    | Some p => get_plugin (p_name p) r
    | None => match find_name ("hodu-backend-" ++ n)%string r with Some p => get_plugin (p_name p) r | None => Err EInternal end
    end
  | None => match by_device device r with Some p => get_plugin (p_name p) r | None => Err EInternal end
  end.
(** build.rs L68-75, L170-228 *)
Definition builds (p : plugin) : bool := match builder (p_caps p) with Some true => true | _ => false end.
Definition build_backend (name : option string) (device : string) (r : plugins) : outcome plugin :=
  match name with
  | Some n =>
    match (match find_name n r with Some p => if builds p then Some p else None | None => None end) with
    | Some p => get_plugin (p_name p) r
    | None =>
      match find_name ("aot-" ++ n)%string r with
      | Some p => if builds p then get_plugin (p_name p) r else Err EInternal
      | None => Err EInternal
      end
    end
  | None =>
    match find (fun p => builds p && has_device (lower device) p) (enabled_of Backend r) with
    | Some p => get_plugin (p_name p) r
    | None => Err EInternal
    end
  end.
(** The plugin that reads the model: run.rs L90-106 and L151-156, build.rs L92-118 *)
Definition model_reader (ext : string) (r : plugins) : outcome plugin :=
  match model_by_ext ext r with Some p => get_plugin (p_name p) r | None => Err EInternal end.
(** convert.rs L91-100, L110-119, L154-163, L182-195 *)
Definition convert_with (pick : plugins -> option plugin) (can : capabilities -> option bool) (r : plugins) : outcome plugin :=
  match pick r with
  | Some p => if flag (can (p_caps p)) then get_plugin (p_name p) r else Err EInternal
  | None => Err EInternal
  end.
End Choose.

(** * The name of a package: parse_package_name, install.rs L554-576.  A line is a list of characters without line breaks. *)
Definition is_space (c : ascii) : bool := existsb (Ascii.eqb c) [" "%char; "009"%char; "011"%char; "012"%char; "013"%char].
Fixpoint trim_start (f : ascii -> bool) (s : string) : string :=
  match s with String c r => if f c then trim_start f r else s | EmptyString => s end.
Definition trim_both (f : ascii -> bool) (s : string) : string := rev_str (trim_start f (rev_str (trim_start f s))).
Fixpoint package_name_from (in_package : bool) (lines : list string) : option string :=
  match lines with
  | [] => None
  | line :: rest =>
    let trimmed := trim_both is_space line in
    if (trimmed =? "[package]")%string then package_name_from true rest
    else if starts_with trimmed "[" then package_name_from false rest
    else if in_package && starts_with trimmed "name" then
      match split_once "="%char trimmed with
      | Some (_, value) =>
        let value := trim_both is_space value in
        Some (trim_both (Ascii.eqb "'"%char) (trim_both (Ascii.eqb "034"%char) value))
      | None => package_name_from in_package rest
      end
    else package_name_from in_package rest
  end.
Definition parse_package_name (lines : list string) : option string := package_name_from false lines.
