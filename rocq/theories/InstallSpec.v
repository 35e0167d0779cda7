(** What a manifest declares and what a registry entry offers to the commands. *)
From Coq Require Import String Ascii List NArith.
From Verif Require Import RegistryModel InstallModel.
Import ListNotations.
Local Open Scope string_scope.
Local Open Scope list_scope.

Inductive ability := Run | Build | LoadModel | SaveModel | LoadTensor | SaveTensor.
(** The names of the RPC methods, crates/hodu_plugin/src/rpc.rs *)
Definition name_of (a : ability) : string :=
  match a with
  | Run => "backend.run" | Build => "backend.build" | LoadModel => "format.load_model" | SaveModel => "format.save_model"
  | LoadTensor => "format.load_tensor" | SaveTensor => "format.save_tensor"
  end.
Definition declared (m : manifest) (c : string) : Prop := exists l, m_caps m = Some l /\ In (Some c) l.
Definition declares (m : manifest) (a : ability) : Prop := declared m (name_of a).
(** A plugin of this type and with these flags is used for [a] *)
Definition offers (t : plugin_type) (c : capabilities) (a : ability) : Prop :=
  match a with
  | Run => t = Backend /\ runner c = Some true
  | Build => t = Backend /\ builder c = Some true
  | LoadModel => t = ModelFormat /\ load_model c = Some true
  | SaveModel => t = ModelFormat /\ save_model c = Some true
  | LoadTensor => t = TensorFormat /\ load_tensor c = Some true
  | SaveTensor => t = TensorFormat /\ save_tensor c = Some true
  end.
Definition is_backend_name (c : string) : Prop := exists r, c = ("backend." ++ r)%string.
Definition no_backend (m : manifest) : Prop := forall c, declared m c -> ~ is_backend_name c.
Definition no_model (m : manifest) : Prop := ~ declares m LoadModel /\ ~ declares m SaveModel.

Fixpoint chars (s : string) : list ascii := match s with EmptyString => [] | String c r => c :: chars r end.
(** Cargo allows letters, digits, - and _ in the name of a package *)
Definition name_char (c : ascii) : Prop :=
  let n := N_of_ascii c in (48 <= n <= 57 \/ 65 <= n <= 90 \/ 97 <= n <= 122 \/ n = 45 \/ n = 95)%N.
Definition package_name (s : string) : Prop := s <> "" /\ Forall name_char (chars s).
(** The text of a line, after blanks, begins with [p] *)
Definition blank (c : ascii) : Prop := In (N_of_ascii c) [32; 9; 11; 12; 13]%N.
Definition begins (l p : string) : Prop := exists w r, Forall blank (chars w) /\ l = (w ++ p ++ r)%string.
Definition quoted (s : string) : string := String "034" (s ++ String "034" "").
