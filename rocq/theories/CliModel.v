(** Text handling of the command line and the plugin runtime: version
    compatibility, device names, host patterns, and the inputs of `hodu run`.

    Simplifications: strings are byte strings; error values carry no text; the
    file system, [Path::extension], [PathBuf::join] and the conversion of JSON
    numbers to float bits are parameters; [str::to_lowercase] is a parameter. *)
From Coq Require Import String Ascii.
From Coq Require Import List NArith ZArith Bool.
From Verif Require Import Base IndexSpec LayoutModel KernelModel TensorModel EncodeModel RpcModel.
Import ListNotations.
Local Open Scope string_scope.
Local Open Scope list_scope.

(* ---------- numbers and pieces of strings ---------- *)

Definition digit (c : ascii) : option N :=
  let n := N_of_ascii c in
  if ((48 <=? n) && (n <=? 57))%N then Some (n - 48)%N else None.
Fixpoint digits (acc : N) (s : string) : option N :=
  match s with
  | EmptyString => Some acc
  | String c r => match digit c with Some d => digits (10 * acc + d)%N r | None => None end
  end.
(** [str::parse::<u32/usize>]: an optional '+' followed by at least one decimal
    digit, without overflow ([bound] is 2^32 or 2^64) *)
Definition parse_uint (bound : N) (s : string) : option N :=
  let body := match s with String "+"%char r => r | _ => s end in
  if body =? "" then None
  else match digits 0 body with
       | Some v => if (v <? bound)%N then Some v else None
       | None => None
       end.

(** [s.split(c)] *)
Fixpoint split_on (c : ascii) (s : string) : list string :=
  match s with
  | EmptyString => [""]
  | String d r =>
    if Ascii.eqb c d then "" :: split_on c r
    else match split_on c r with
         | p :: ps => String d p :: ps
         | [] => [String d ""]
         end
  end.
(** [strip_prefix] *)
Fixpoint strip_prefix (p s : string) : option string :=
  match p, s with
  | EmptyString, _ => Some s
  | String a p', String b s' => if Ascii.eqb a b then strip_prefix p' s' else None
  | String _ _, EmptyString => None
  end.
Definition starts_with (s p : string) : bool := match strip_prefix p s with Some _ => true | None => false end.
Fixpoint rev_str (s : string) : string :=
  match s with EmptyString => "" | String c r => String.append (rev_str r) (String c "") end.
Definition ends_with (s p : string) : bool := starts_with (rev_str s) (rev_str p).
Definition strip_suffix (p s : string) : option string := option_map rev_str (strip_prefix (rev_str p) (rev_str s)).
(** [s.splitn(2, c)]: before and after the first [c] *)
Fixpoint split_once (c : ascii) (s : string) : option (string * string) :=
  match s with
  | EmptyString => None
  | String d r =>
    if Ascii.eqb c d then Some ("", r)
    else option_map (fun p => (String d (fst p), snd p)) (split_once c r)
  end.

(* ---------- versions: client.rs:379-402 ---------- *)

Definition filter_parse (ps : list string) : list N :=
  flat_map (fun p => match parse_uint (2 ^ 32) p with Some n => [n] | None => [] end) ps.
Definition is_protocol_compatible (v1 v2 : string) : bool :=
  let parts1 := filter_parse (split_on "."%char v1) in
  let parts2 := filter_parse (split_on "."%char v2) in
  let major1 := nth 0 parts1 0%N in
  let minor1 := nth 1 parts1 0%N in
  let major2 := nth 0 parts2 0%N in
  let minor2 := nth 1 parts2 0%N in
  if (major1 =? 0)%N || (major2 =? 0)%N then ((major1 =? major2) && (minor1 =? minor2))%N
  else (major1 =? major2)%N.

(* ---------- devices: hodu-cli/src/commands/run.rs:368-409 ---------- *)

Section Device.
(** [str::to_lowercase] *)
Variable lower : string -> string.
(** [None] is [Err] *)
Definition parse_device (device_str : string) : option string :=
  let device := lower device_str in
  if existsb (String.eqb device) ["cpu"; "metal"; "vulkan"; "webgpu"] then Some device
  else if starts_with device "cuda" then
    if device =? "cuda" then Some "cuda::0"
    else match strip_prefix "cuda::" device with
    | Some idx => match parse_uint (2 ^ 64) idx with Some _ => Some device | None => None end
    | None =>
      match strip_prefix "cuda:" device with
      | Some idx => match parse_uint (2 ^ 64) idx with Some _ => Some (String.append "cuda::" idx) | None => None end
      | None => None
      end
    end
  else if starts_with device "rocm" then
    if device =? "rocm" then Some "rocm::0"
    else match strip_prefix "rocm::" device with
    | Some idx => match parse_uint (2 ^ 64) idx with Some _ => Some device | None => None end
    | None => None
    end
  else Some device.
End Device.

(** [s.split("::")]: before and after the first "::" *)
Fixpoint split_colons (s : string) : option (string * string) :=
  match s with
  | String ":"%char (String ":"%char r) => Some ("", r)
  | String c r => option_map (fun p => (String c (fst p), snd p)) (split_colons r)
  | EmptyString => None
  end.
(** crates/hodu_plugin/src/backend.rs:12-20 *)
Definition parse_device_id (device : string) : option N :=
  match split_colons device with
  | None => None
  | Some (_, rest) =>
    parse_uint (2 ^ 64) (match split_colons rest with Some (second, _) => second | None => rest end)
  end.
Definition device_type (device : string) : string :=
  match split_colons device with Some (t, _) => t | None => device end.

(* ---------- hosts: hodu-plugin-sdk/src/backend.rs:97-114 ---------- *)
Definition host_matches_pattern (host pattern : string) : bool :=
  if pattern =? "*" then true
  else match strip_prefix "*" pattern with
  | Some suffix => ends_with host suffix
  | None =>
    match strip_suffix "*" pattern with
    | Some prefix => starts_with host prefix
    | None => host =? pattern
    end
  end.

(* ---------- run's inputs ---------- *)

(** crates/hodu_plugin/src/tensor.rs:150-159 *)
Record tensor_data := mkTD { td_data : list Z; td_shape : list nat; td_dtype : pdtype }.
(** an input of the snapshot: name, shape, dtype *)
Record input_spec := mkIn { in_name : string; in_shape : list nat; in_dtype : dtype }.

(** [Map::get] of a parsed object: the last of equal keys *)
Definition get (k : string) (kvs : list (string * json)) : option json :=
  match find (fun p => fst p =? k) (rev kvs) with Some (_, v) => Some v | None => None end.
Definition as_u64 (j : json) : option nat :=
  match j with JInt n => if ((0 <=? n) && (n <? 2 ^ 64))%Z then Some (Z.to_nat n) else None | _ => None end.
Definition as_i64 (j : json) : option Z :=
  match j with JInt n => if in_i64 n then Some n else None | _ => None end.
Definition as_array (j : json) : option (list json) := match j with JArr l => Some l | _ => None end.
Fixpoint map_opt {A B} (f : A -> option B) (l : list A) : option (list B) :=
  match l with
  | [] => Some []
  | x :: r => match f x, map_opt f r with Some y, Some ys => Some (y :: ys) | _, _ => None end
  end.
Fixpoint list_eqb (a b : list nat) : bool :=
  match a, b with
  | [], [] => true
  | x :: a', y :: b' => Nat.eqb x y && list_eqb a' b'
  | _, _ => false
  end.
Definition pd_eqb (a b : pdtype) : bool := Nat.eqb (ptag a) (ptag b).

Section Inputs.
(** the file system *)
Variable file_exists : string -> bool.
Variable extension : string -> string.           (* "" when there is none *)
Variable read_json : string -> option json.      (* read and parse *)
Variable read_hdt : string -> option hdt.        (* read and parse the container *)
Variables (home : option string) (join : string -> string -> string).
(** [as_f64] followed by the conversion to the bits of an f32 or f64; [None]
    when the value is not a number *)
Variables (f32_bits f64_bits : json -> option Z).

(** hodu-cli/src/tensor/loader.rs:133-165; [as_i64()? as i32] keeps the low 32
    bits, as does [le_bytes 4] *)
Definition json_array_to_bytes (arr : list json) (d : pdtype) : option (list Z) :=
  match d with
  | PF32 => option_map (flat_map (le_bytes 4)) (map_opt f32_bits arr)
  | PF64 => option_map (flat_map (le_bytes 8)) (map_opt f64_bits arr)
  | PI32 => option_map (flat_map (le_bytes 4)) (map_opt as_i64 arr)
  | PI64 => option_map (flat_map (le_bytes 8)) (map_opt as_i64 arr)
  | _ => None
  end.

(** loader.rs:55-106 *)
Definition load_tensor_json (path : string) (shape : list nat) (d : pdtype) : option tensor_data :=
  match read_json path with
  | Some (JObj kvs) =>
    match match get "shape" kvs with Some (JArr l) => map_opt as_u64 l | _ => None end with
    | Some s =>
      if negb (list_eqb s shape) then None
      else match match get "dtype" kvs with Some (JStr n) => str_to_pdtype n | _ => None end with
      | Some d' =>
        if negb (pd_eqb d' d) then None
        else match get "data" kvs with
        | Some (JArr arr) => option_map (fun bs => mkTD bs s d') (json_array_to_bytes arr d')
        | _ => None
        end
      | None => None
      end
    | None => None
    end
  | _ => None
  end.

Definition zero_val (d : dtype) : val d := match d return val d with BOOL => false | _ => 0%Z end.
(** loader.rs:21-53; a panic is impossible here and counted as an error *)
Definition load_tensor_hdt (path : string) (shape : list nat) (d : pdtype) : option tensor_data :=
  match read_hdt path with
  | Some h =>
    match hdt_deserialize h with
    | Ok t =>
      if negb (list_eqb (lshape (tlay t)) shape) then None
      else if negb (pd_eqb (core_dtype_to_plugin (hdt_dtype h)) d) then None
      else match t_to_bytes (hdt_dtype h) (zero_val (hdt_dtype h)) t with
      | Ok bs => Some (mkTD bs (lshape (tlay t)) (core_dtype_to_plugin (hdt_dtype h)))
      | _ => None
      end
    | _ => None
    end
  | None => None
  end.

(** loader.rs:7-19 *)
Definition load_tensor_file (path : string) (shape : list nat) (d : pdtype) : option tensor_data :=
  if extension path =? "hdt" then load_tensor_hdt path shape d
  else if extension path =? "json" then load_tensor_json path shape d
  else None.

(** run.rs:359-366 *)
Definition expand_path (path : string) : string :=
  match strip_prefix "~/" path with
  | Some rest => match home with Some h => join h rest | None => path end
  | None => path
  end.

(** a [HashMap<String, TensorData>], latest insertion first *)
Definition inputs := list (string * tensor_data).
Definition in_get (m : inputs) (k : string) : option tensor_data :=
  match find (fun p => fst p =? k) m with Some (_, v) => Some v | None => None end.

(** run.rs:280-305, one argument *)
Definition parse_input (specs : list input_spec) (arg : string) : option (string * tensor_data) :=
  match split_once "="%char arg with
  | None => None
  | Some (name, raw) =>
    let path := expand_path raw in
    if negb (file_exists path) then None
    else match find (fun i => in_name i =? name) specs with
    | None => None
    | Some i => option_map (pair name) (load_tensor_file path (in_shape i) (core_dtype_to_plugin (in_dtype i)))
    end
  end.
Fixpoint parse_args (specs : list input_spec) (args : list string) (m : inputs) : option inputs :=
  match args with
  | [] => Some m
  | a :: r => match parse_input specs a with Some kv => parse_args specs r (kv :: m) | None => None end
  end.
(** run.rs:274-318 *)
Definition parse_inputs (args : list string) (specs : list input_spec) : option inputs :=
  match parse_args specs args [] with
  | None => None
  | Some m =>
    if forallb (fun i => match in_get m (in_name i) with Some _ => true | None => false end) specs
    then Some m else None
  end.
End Inputs.
