(** Proofs about installing, updating and choosing plugins. *)
From Coq Require Import String Ascii.
From Coq Require Import List NArith Arith Bool Lia Sorting.Sorted.
From Verif Require Import Base CliModel CliProofs.
From Verif Require Import RegistryModel InstallModel InstallSpec.
Import ListNotations.
Local Open Scope string_scope.
Local Open Scope list_scope.

(** ** the manifest *)
Lemma in_texts : forall m c, In c (texts (m_caps m)) <-> declared m c.
Proof.
  intros m c. unfold texts, declared. destruct (m_caps m) as [l|].
  - rewrite in_flat_map. split.
    + intros [[s|] [I H]]; [|destruct H]. destruct H as [->|[]]. now exists l.
    + intros [l' [E I]]. injection E as <-. exists (Some c). split; [exact I|now left].
  - split; [intros []|intros [l [E _]]; discriminate E].
Qed.
Lemma has_cap_spec : forall c m, has_cap c m = true <-> declared m c.
Proof.
  intros c m. unfold has_cap, any_cap. rewrite existsb_exists, <- in_texts. split.
  - intros [x [I E]]. apply String.eqb_eq in E. now subst x.
  - intros I. exists c. split; [exact I|apply String.eqb_refl].
Qed.
Lemma strip_prefix_spec : forall p s r, strip_prefix p s = Some r <-> s = (p ++ r)%string.
Proof.
  induction p as [|a p IH]; intros s r.
  - cbn. split; [intros H; injection H as ->; reflexivity|intros ->; reflexivity].
  - destruct s as [|b s]; cbn.
    + split; [discriminate|intros H; discriminate H].
    + destruct (Ascii.eqb a b) eqn:E.
      * apply Ascii.eqb_eq in E. subst b. rewrite IH. split; [intros ->; reflexivity|intros H; injection H as ->; reflexivity].
      * apply Ascii.eqb_neq in E. split; [discriminate|]. intros H. injection H as H _. congruence.
Qed.
Lemma starts_with_spec : forall s p, starts_with s p = true <-> exists r, s = (p ++ r)%string.
Proof.
  intros s p. unfold starts_with. destruct (strip_prefix p s) as [r|] eqn:E.
  - apply strip_prefix_spec in E. split; [intros _; now exists r|reflexivity].
  - split; [discriminate|]. intros [r H]. apply strip_prefix_spec in H. congruence.
Qed.
Lemma any_backend_spec : forall m, any_cap (fun s => starts_with s "backend.") m = true <-> exists c, declared m c /\ is_backend_name c.
Proof.
  intros m. unfold any_cap. rewrite existsb_exists. split.
  - intros [c [I H]]. exists c. apply in_texts in I. apply starts_with_spec in H. auto.
  - intros [c [I H]]. exists c. split; [now apply in_texts|]. now apply starts_with_spec.
Qed.
Definition type_of (host package : string) (m : manifest) : plugin_type := snd (fst (parse_manifest host package m)).
Definition caps_of (host package : string) (m : manifest) : capabilities := snd (parse_manifest host package m).

Lemma backend_true : forall m a, a = Run \/ a = Build -> declares m a -> any_cap (fun s => starts_with s "backend.") m = true.
Proof.
  intros m a [-> | ->] D; apply any_backend_spec; eexists; (split; [exact D|]); [exists "run"|exists "build"]; reflexivity.
Qed.
Ltac cases m :=
  unfold type_of, caps_of, parse_manifest;
  destruct (any_cap (fun s => starts_with s "backend.") m) eqn:EB;
  [|destruct (has_cap "format.load_model" m || has_cap "format.save_model" m) eqn:EM;
    [|destruct (has_cap "format.load_tensor" m || has_cap "format.save_tensor" m) eqn:ET]]; cbn.
Lemma some_true : forall b, Some b = Some true <-> b = true.
Proof. intros b. split; [intros H; now injection H|now intros ->]. Qed.
Lemma backend_offers : forall host package m,
  let t := type_of host package m in let c := caps_of host package m in
  (offers t c Run <-> declares m Run) /\ (offers t c Build <-> declares m Build) /\
  (t = Backend -> devices c = texts (m_devices m)).
Proof.
  intros host package m t c. subst t c.
  assert (R : declares m Run -> any_cap (fun s => starts_with s "backend.") m = true) by (apply backend_true; auto).
  assert (B : declares m Build -> any_cap (fun s => starts_with s "backend.") m = true) by (apply backend_true; auto).
  cases m; rewrite ?some_true, ?has_cap_spec; unfold declares, name_of in *; (split; [|split]).
  1-2: tauto. 1: reflexivity.
  all: try discriminate.
  all: split; [intros [H _]; discriminate H|intros D; exfalso; first [apply R in D|apply B in D]; congruence].
Qed.
Lemma no_backend_false : forall m, no_backend m -> any_cap (fun s => starts_with s "backend.") m = false.
Proof.
  intros m N. destruct (any_cap _ m) eqn:E; [|reflexivity]. apply any_backend_spec in E. destruct E as [c [D B]]. destruct (N c D B).
Qed.
Lemma model_offers : forall host package m, no_backend m ->
  let t := type_of host package m in let c := caps_of host package m in
  (declares m LoadModel -> offers t c LoadModel /\ model_extensions c = texts (m_exts m)) /\
  (declares m SaveModel -> offers t c SaveModel /\ model_extensions c = texts (m_exts m)).
Proof.
  intros host package m N t c. subst t c. apply no_backend_false in N. cases m; try congruence; unfold declares, name_of.
  - rewrite !some_true, !has_cap_spec. tauto.
  - apply orb_false_iff in EM. destruct EM as [E1 E2]. rewrite <- !has_cap_spec. split; congruence.
  - apply orb_false_iff in EM. destruct EM as [E1 E2]. rewrite <- !has_cap_spec. split; congruence.
Qed.
Lemma tensor_offers : forall host package m, no_backend m -> no_model m ->
  let t := type_of host package m in let c := caps_of host package m in
  (declares m LoadTensor -> offers t c LoadTensor /\ tensor_extensions c = texts (m_exts m)) /\
  (declares m SaveTensor -> offers t c SaveTensor /\ tensor_extensions c = texts (m_exts m)).
Proof.
  intros host package m N M t c. subst t c. apply no_backend_false in N. unfold no_model, declares, name_of in M. rewrite <- !has_cap_spec in M.
  cases m; try congruence; unfold declares, name_of.
  - apply orb_true_iff in EM. tauto.
  - rewrite !some_true, !has_cap_spec. tauto.
  - apply orb_false_iff in ET. destruct ET as [E1 E2]. rewrite <- !has_cap_spec. split; congruence.
Qed.
Lemma offers_sound : forall host package m a,
  (exists c, declared m c /\ is_backend_name c) \/ (exists b, declares m b) ->
  offers (type_of host package m) (caps_of host package m) a -> declares m a.
Proof.
  intros host package m a K. cases m; destruct a; cbn; unfold declares, name_of; rewrite ?some_true, ?has_cap_spec;
    intros [H1 H2]; try discriminate H1; auto; try discriminate H2.
  exfalso. destruct K as [K|[b K]].
  - apply any_backend_spec in K. congruence.
  - apply orb_false_iff in EM. apply orb_false_iff in ET. destruct EM as [M1 M2], ET as [T1 T2].
    unfold declares in K. destruct b.
    + rewrite (backend_true m Run) in EB; auto. discriminate.
    + rewrite (backend_true m Build) in EB; auto. discriminate.
    + apply has_cap_spec in K. cbn in K. congruence.
    + apply has_cap_spec in K. cbn in K. congruence.
    + apply has_cap_spec in K. cbn in K. congruence.
    + apply has_cap_spec in K. cbn in K. congruence.
Qed.

(** ** choosing *)
Section Choose.
Variable lower : string -> string.
Lemma get_plugin_ok : forall n r p, get_plugin n r = Ok p -> In p r /\ p_enabled p = true /\ p_name p = n.
Proof.
  intros n r p. unfold get_plugin, find_name. destruct (find _ r) as [q|] eqn:F; [|discriminate].
  destruct (p_enabled q) eqn:E; [|discriminate]. intros H. injection H as ->.
  apply find_some in F. destruct F as [I N]. apply String.eqb_eq in N. auto.
Qed.
(** the names of a registry are different from each other *)
Lemma find_name_unique : forall r p, NoDup (map p_name r) -> In p r -> find_name (p_name p) r = Some p.
Proof.
  unfold find_name. induction r as [|q r IH]; intros p D I; [destruct I|]. cbn in *. inversion D; subst.
  destruct I as [->|I]. { now rewrite String.eqb_refl. }
  destruct (p_name q =? p_name p) eqn:E; [|now apply IH]. exfalso. apply String.eqb_eq in E. apply H1. rewrite E. now apply in_map.
Qed.
Lemma get_plugin_self : forall r p, NoDup (map p_name r) -> In p r -> p_enabled p = true -> get_plugin (p_name p) r = Ok p.
Proof. intros r p D I E. unfold get_plugin. rewrite find_name_unique by auto. now rewrite E. Qed.
Lemma get_plugin_fun : forall r p q, NoDup (map p_name r) -> In p r -> get_plugin (p_name p) r = Ok q -> q = p.
Proof.
  intros r p q D I H. unfold get_plugin in H. rewrite find_name_unique in H by auto. destruct (p_enabled p); [|discriminate]. congruence.
Qed.
Lemma find_name_in : forall n r p, find_name n r = Some p -> In p r.
Proof. intros n r p H. apply find_some in H. apply H. Qed.
Lemma enabled_of_in : forall t r p, In p (enabled_of t r) <-> In p r /\ p_type p = t /\ p_enabled p = true.
Proof.
  intros t r p. unfold enabled_of. rewrite filter_In, andb_true_iff. split; intros [I [H1 H2]]; (split; [exact I|]); (split; [|exact H2]).
  - destruct (p_type p), t; cbn in H1; congruence.
  - rewrite H1. destruct t; reflexivity.
Qed.
Ltac got H := apply get_plugin_ok in H; destruct H as (? & ? & ?); auto.
Lemma started_enabled : forall r p,
  (exists name device, run_backend lower name device r = Ok p) \/ (exists name device, build_backend lower name device r = Ok p) \/
  (exists ext, model_reader lower ext r = Ok p) \/ (exists pick can, convert_with pick can r = Ok p) ->
  In p r /\ p_enabled p = true.
Proof.
  intros r p [[name [device H]]|[[name [device H]]|[[ext H]|[pick [can H]]]]].
  - unfold run_backend in H. destruct name as [n|].
    + destruct (find_name n r); [got H|]. destruct (find_name _ r); [got H|discriminate].
    + destruct (by_device lower device r); [got H|discriminate].
  - unfold build_backend in H. destruct name as [n|].
    + destruct (match find_name n r with Some _ => _ | None => _ end); [got H|].
      destruct (find_name _ r) as [q|]; [|discriminate]. destruct (builds q); [got H|discriminate].
    + destruct (find _ _); [got H|discriminate].
  - unfold model_reader in H. destruct (model_by_ext lower ext r); [got H|discriminate].
  - unfold convert_with in H. destruct (pick r) as [q|]; [|discriminate]. destruct (flag _); [got H|discriminate].
Qed.
Lemma build_builds : forall r name device p, NoDup (map p_name r) -> build_backend lower name device r = Ok p -> builder (p_caps p) = Some true.
Proof.
  intros r name device p D H.
  assert (B : forall q, builds q = true -> builder (p_caps q) = Some true).
  { intros q. unfold builds. destruct (builder (p_caps q)) as [[]|]; congruence. }
  unfold build_backend in H. destruct name as [n|].
  - destruct (find_name n r) as [q|] eqn:F; [destruct (builds q) eqn:E|].
    + pose proof (get_plugin_fun _ _ _ D (find_name_in _ _ _ F) H) as ->. now apply B.
    + destruct (find_name ("aot-" ++ n)%string r) as [q'|] eqn:F'; [|discriminate]. destruct (builds q') eqn:E'; [|discriminate].
      pose proof (get_plugin_fun _ _ _ D (find_name_in _ _ _ F') H) as ->. now apply B.
    + destruct (find_name ("aot-" ++ n)%string r) as [q'|] eqn:F'; [|discriminate]. destruct (builds q') eqn:E'; [|discriminate].
      pose proof (get_plugin_fun _ _ _ D (find_name_in _ _ _ F') H) as ->. now apply B.
  - destruct (find _ (enabled_of Backend r)) as [q|] eqn:F; [|discriminate]. apply find_some in F. destruct F as [I E].
    apply enabled_of_in in I. pose proof (get_plugin_fun _ _ _ D (proj1 I) H) as ->. apply andb_true_iff in E. apply B, E.
Qed.
Lemma build_by_device : forall r device p, NoDup (map p_name r) ->
  build_backend lower None device r = Ok p ->
  p_type p = Backend /\ builder (p_caps p) = Some true /\ exists d, In d (devices (p_caps p)) /\ lower d = lower device.
Proof.
  intros r device p D H. split; [|split; [exact (build_builds _ _ _ _ D H)|]];
    unfold build_backend in H; (destruct (find _ (enabled_of Backend r)) as [q|] eqn:F; [|discriminate]); apply find_some in F;
    destruct F as [I E]; apply enabled_of_in in I; pose proof (get_plugin_fun _ _ _ D (proj1 I) H) as ->; [apply I|].
  apply andb_true_iff in E. destruct E as [_ E]. apply existsb_exists in E. destruct E as [d [Id Ed]]. apply String.eqb_eq in Ed. eauto.
Qed.
Lemma build_finds : forall r device q d, NoDup (map p_name r) ->
  In q r -> p_enabled q = true -> p_type q = Backend -> builder (p_caps q) = Some true -> In d (devices (p_caps q)) -> lower d = lower device ->
  exists p, build_backend lower None device r = Ok p.
Proof.
  intros r device q d D I E T B Id L. unfold build_backend.
  destruct (find _ (enabled_of Backend r)) as [p|] eqn:F.
  - apply find_some in F. destruct F as [Ip _]. apply enabled_of_in in Ip. exists p. now apply get_plugin_self.
  - exfalso. pose proof (find_none _ _ F q) as N. rewrite enabled_of_in in N. cbn beta in N. specialize (N (conj I (conj T E))).
    apply andb_false_iff in N. destruct N as [N|N]; [unfold builds in N; rewrite B in N; discriminate|].
    unfold has_device in N. assert (existsb (fun x => lower x =? lower device) (devices (p_caps q)) = true) as X; [|congruence].
    apply existsb_exists. exists d. split; [exact Id|]. now apply String.eqb_eq.
Qed.
Lemma run_by_device : forall r device p, NoDup (map p_name r) ->
  run_backend lower None device r = Ok p -> p_type p = Backend /\ exists d, In d (devices (p_caps p)) /\ lower d = lower device.
Proof.
  intros r device p D H. unfold run_backend, by_device in H. destruct (find _ (enabled_of Backend r)) as [q|] eqn:F; [|discriminate].
  apply find_some in F. destruct F as [I E]. apply enabled_of_in in I. pose proof (get_plugin_fun _ _ _ D (proj1 I) H) as ->.
  split; [apply I|]. apply existsb_exists in E. destruct E as [d [Id Ed]]. apply String.eqb_eq in Ed. eauto.
Qed.
Lemma run_runs : forall r device p, NoDup (map p_name r) -> (forall q, In q r -> p_type q = Backend -> runner (p_caps q) = Some true) ->
  run_backend lower None device r = Ok p -> offers (p_type p) (p_caps p) Run.
Proof.
  intros r device p D A H. destruct (run_by_device _ _ _ D H) as [T _]. split; [exact T|]. apply A; [|exact T].
  apply (started_enabled r p). left. eauto.
Qed.
Lemma convert_can : forall r e can p, NoDup (map p_name r) ->
  (convert_with (model_by_ext lower e) can r = Ok p \/ convert_with (tensor_by_ext lower e) can r = Ok p) -> can (p_caps p) = Some true.
Proof.
  intros r e can p D H.
  assert (X : forall pick, (forall q, pick r = Some q -> In q r) -> convert_with pick can r = Ok p -> can (p_caps p) = Some true).
  { intros pick P K. unfold convert_with in K. destruct (pick r) as [q|] eqn:Q; [|discriminate]. destruct (flag (can (p_caps q))) eqn:G; [|discriminate].
    pose proof (get_plugin_fun _ _ _ D (P _ eq_refl) K) as ->. unfold flag, or_else in G. destruct (can (p_caps q)) as [[]|]; congruence. }
  destruct H as [H|H]; (eapply X; [|exact H]); intros q Q; apply find_some in Q; destruct Q as [I _]; apply enabled_of_in in I; apply I.
Qed.
Lemma reader_type : forall r e p, NoDup (map p_name r) -> model_reader lower e r = Ok p ->
  p_type p = ModelFormat /\ exists x, In x (model_extensions (p_caps p)) /\ norm_ext lower x = norm_ext lower e.
Proof.
  intros r e p D H. unfold model_reader, model_by_ext in H. destruct (find _ (enabled_of ModelFormat r)) as [q|] eqn:F; [|discriminate].
  apply find_some in F. destruct F as [I E]. apply enabled_of_in in I. pose proof (get_plugin_fun _ _ _ D (proj1 I) H) as ->.
  split; [apply I|]. apply existsb_exists in E. destruct E as [x [Ix Ex]]. apply String.eqb_eq in Ex. eauto.
Qed.
End Choose.

(** ** versions *)
Lemma accepted_semver : forall a b c a' b' c', (a < 2 ^ 32)%N -> (b < 2 ^ 32)%N -> (c < 2 ^ 32)%N ->
  (a' < 2 ^ 32)%N -> (b' < 2 ^ 32)%N -> (c' < 2 ^ 32)%N ->
  (version_accepted (semver a b c) (semver a' b' c') = true <-> a' = a /\ (b' <= b)%N).
Proof.
  intros. unfold version_accepted. rewrite !semver_parts by assumption. rewrite andb_true_iff, negb_true_iff, N.eqb_eq, N.ltb_ge. intuition.
Qed.
Lemma host_semver : forall a b c, host_major_minor (semver a b c) = (dec a ++ "." ++ dec b)%string.
Proof.
  intros a b c. unfold host_major_minor, semver.
  change ("." ++ dec b ++ "." ++ dec c)%string with (String "."%char (dec b ++ String "."%char (dec c)))%string.
  rewrite split_on_app by (apply dec_no_char; left; reflexivity). rewrite split_on_app by (apply dec_no_char; left; reflexivity).
  reflexivity.
Qed.
Lemma filter_first : forall {A} (f : A -> bool) l x r, filter f l = x :: r ->
  exists pre post, l = pre ++ x :: post /\ f x = true /\ Forall (fun y => f y = false) pre.
Proof.
  intros A f. induction l as [|y l IH]; intros x r H; [discriminate H|]. cbn in H. destruct (f y) eqn:E.
  - injection H as -> H. exists [], l. auto.
  - destruct (IH x r H) as (pre & post & -> & F & N). exists (y :: pre), post. auto.
Qed.
Lemma filter_none : forall {A} (f : A -> bool) l, filter f l = [] -> Forall (fun y => f y = false) l.
Proof. intros A f. induction l as [|y l IH]; intros H; [constructor|]. cbn in H. destruct (f y) eqn:E; [discriminate|]. auto. Qed.
Lemma filter_app_first : forall {A} (f : A -> bool) pre x post, Forall (fun y => f y = false) pre -> f x = true ->
  exists r, filter f (pre ++ x :: post) = x :: r.
Proof.
  intros A f pre x post F X. induction F as [|y pre N F IH]; cbn; [rewrite X; eauto|]. rewrite N. exact IH.
Qed.
Lemma latest_spec : forall host versions requested t, requested = None \/ requested = Some "latest" ->
  (choose_tag host versions None requested = Ok (Some t) <->
   exists pre v post, versions = pre ++ v :: post /\ v_tag v = t /\ v_plugin v = host_major_minor host /\
     Forall (fun w => v_plugin w <> host_major_minor host) pre).
Proof.
  intros host versions requested t R.
  assert (L : choose_tag host versions None requested =
    match filter (fun v => (v_plugin v =? host_major_minor host)%string) versions with v :: _ => Ok (Some (v_tag v)) | [] => Err EInternal end).
  { unfold choose_tag. destruct R as [-> | ->]; reflexivity. }
  rewrite L. split.
  - destruct (filter _ versions) as [|v r] eqn:F; [discriminate|]. intros H. injection H as <-.
    destruct (filter_first _ _ _ _ F) as (pre & post & E & X & N). exists pre, v, post. apply String.eqb_eq in X.
    repeat (split; [assumption||reflexivity|]). eapply Forall_impl; [|exact N]. cbn. intros w W. now apply String.eqb_neq in W.
  - intros (pre & v & post & -> & <- & X & N). destruct (filter_app_first (fun v => (v_plugin v =? host_major_minor host)%string) pre v post) as [r ->]; [|now apply String.eqb_eq|reflexivity].
    eapply Forall_impl; [|exact N]. cbn. intros w W. now apply String.eqb_neq.
Qed.
Lemma latest_newest : forall host versions (newer : version_entry -> version_entry -> Prop) requested t,
  requested = None \/ requested = Some "latest" -> StronglySorted newer versions ->
  choose_tag host versions None requested = Ok (Some t) ->
  exists v, In v versions /\ v_tag v = t /\ v_plugin v = host_major_minor host /\
    forall w, In w versions -> v_plugin w = host_major_minor host -> w = v \/ newer v w.
Proof.
  intros host versions newer requested t R S H. apply latest_spec in H; [|exact R].
  destruct H as (pre & v & post & -> & T & X & N). exists v. split; [apply in_or_app; right; now left|]. do 2 (split; [assumption|]).
  intros w I P. apply in_app_or in I. destruct I as [I|[<-|I]]; [| now left|right].
  - rewrite Forall_forall in N. destruct (N w I P).
  - clear N X. induction pre as [|y pre IH]; cbn in S; [|apply IH; now inversion S]. inversion S as [|a l S1 S2]; subst. rewrite Forall_forall in S2. now apply S2.
Qed.

(** ** updates *)
Lemma update_enables : forall host package official git m p,
  update_action host official p <> AlreadyLatest -> update_action host official p <> Skipped ->
  p_enabled (update_entry host package official git m p) = true.
Proof.
  intros host package official git m p A S. unfold update_entry, entry_of.
  destruct (update_action host official p) eqn:E; try congruence;
    destruct (parse_manifest host package m) as [[[[? ?] ?] ?] ?]; reflexivity.
Qed.
Lemma update_kept : forall host package official git m p,
  update_action host official p = AlreadyLatest \/ update_action host official p = Skipped ->
  update_entry host package official git m p = p.
Proof. intros host package official git m p [E|E]; unfold update_entry; rewrite E; reflexivity. Qed.
Lemma update_source : forall host package official git m p,
  (forall versions, official = Some versions -> forall v, In v versions -> v_plugin v <> host_major_minor host) ->
  p_source (update_entry host package official git m p) = p_source p.
Proof.
  intros host package official git m p N.
  assert (F : update_action host official p = match p_source p with Git _ tag _ => FromGit tag | Local path => FromPath path | CratesIo => Skipped end).
  { unfold update_action. destruct official as [versions|]; [|reflexivity].
    destruct (find _ versions) as [v|] eqn:E; [|reflexivity]. apply find_some in E. destruct E as [I E]. apply String.eqb_eq in E.
    destruct (N versions eq_refl v I E). }
  unfold update_entry, entry_of. rewrite F. destruct (p_source p) eqn:S; destruct (parse_manifest host package m) as [[[[? ?] ?] ?] ?]; cbn; congruence.
Qed.

(** ** the name of a package *)
Lemma app_assoc_s : forall a b c : string, ((a ++ b) ++ c)%string = (a ++ (b ++ c))%string.
Proof. induction a as [|x a IH]; intros; cbn; [reflexivity|]. now rewrite IH. Qed.
Lemma app_nil_s : forall a : string, (a ++ "")%string = a.
Proof. induction a as [|x a IH]; cbn; [reflexivity|]. now rewrite IH. Qed.
Lemma rev_str_app : forall a b, rev_str (a ++ b) = (rev_str b ++ rev_str a)%string.
Proof. induction a as [|x a IH]; intros b; cbn; [now rewrite app_nil_s|]. now rewrite IH, app_assoc_s. Qed.
Lemma rev_str_inv : forall a, rev_str (rev_str a) = a.
Proof. induction a as [|x a IH]; cbn; [reflexivity|]. rewrite rev_str_app, IH. reflexivity. Qed.
Lemma chars_app : forall a b, chars (a ++ b) = chars a ++ chars b.
Proof. induction a as [|x a IH]; intros; cbn; [reflexivity|]. now rewrite IH. Qed.
Lemma chars_rev : forall a, chars (rev_str a) = rev (chars a).
Proof. induction a as [|x a IH]; cbn; [reflexivity|]. rewrite chars_app, IH. reflexivity. Qed.
Lemma trim_start_split : forall f s, exists w, s = (w ++ trim_start f s)%string /\ Forall (fun c => f c = true) (chars w).
Proof.
  intros f. induction s as [|c s [w [E F]]]; [exists ""; split; [reflexivity|constructor]|]. cbn. destruct (f c) eqn:C.
  - exists (String c w). cbn. rewrite <- E. split; [reflexivity|]. now constructor.
  - exists "". split; [reflexivity|constructor].
Qed.
Lemma trim_both_split : forall f s, exists w w', s = (w ++ trim_both f s ++ w')%string /\ Forall (fun c => f c = true) (chars w).
Proof.
  intros f s. unfold trim_both. destruct (trim_start_split f s) as [w [E F]].
  destruct (trim_start_split f (rev_str (trim_start f s))) as [v [E' _]]. exists w, (rev_str v). split; [|exact F].
  rewrite <- rev_str_app, <- E', rev_str_inv. exact E.
Qed.
Lemma trim_start_none : forall f s, Forall (fun c => f c = false) (chars s) -> trim_start f s = s.
Proof. intros f [|c s] F; [reflexivity|]. cbn in *. inversion F; subst. now rewrite H1. Qed.
Lemma trim_both_none : forall f s, Forall (fun c => f c = false) (chars s) -> trim_both f s = s.
Proof.
  intros f s F. unfold trim_both. rewrite (trim_start_none f s F), trim_start_none, rev_str_inv; [reflexivity|].
  rewrite chars_rev. now apply Forall_rev.
Qed.
Lemma trim_both_ends : forall f c s d, f c = false -> f d = false ->
  trim_both f (String c (s ++ String d "")) = String c (s ++ String d "").
Proof.
  intros f c s d C D. unfold trim_both. cbn [trim_start]. rewrite C.
  replace (rev_str (String c (s ++ String d ""))) with (String d (rev_str (String c s))) by (cbn; rewrite rev_str_app; reflexivity).
  cbn [trim_start]. rewrite D. cbn [rev_str]. rewrite rev_str_app, rev_str_inv. reflexivity.
Qed.
Lemma trim_both_quotes : forall f c s, f c = true -> Forall (fun c => f c = false) (chars s) ->
  trim_both f (String c (s ++ String c "")) = s.
Proof.
  intros f c s C F. unfold trim_both. cbn [trim_start]. rewrite C. destruct s as [|d s].
  - cbn. rewrite C. reflexivity.
  - assert (D : f d = false) by (inversion F; auto). cbn [append trim_start]. rewrite D.
    replace (rev_str (String d (s ++ String c ""))) with (String c (rev_str (String d s))) by (cbn; rewrite rev_str_app; reflexivity).
    cbn [trim_start]. rewrite C. rewrite trim_start_none, rev_str_inv; [reflexivity|]. rewrite chars_rev. now apply Forall_rev.
Qed.
(** the line, after blanks, begins with [p] *)
Lemma trimmed_begins : forall l p, starts_with (trim_both is_space l) p = true -> begins l p.
Proof.
  intros l p H. apply starts_with_spec in H. destruct H as [r R]. destruct (trim_both_split is_space l) as (w & w' & E & F).
  exists w, (r ++ w')%string. split.
  - eapply Forall_impl; [|exact F]. intros c C. unfold is_space in C. apply existsb_exists in C. destruct C as [x [I X]]. apply Ascii.eqb_eq in X. subst x.
    unfold blank. cbn in I. repeat (destruct I as [<-|I]; [cbn; auto 10|]). destruct I.
  - rewrite R, app_assoc_s in E. exact E.
Qed.
Lemma eqb_starts : forall s p, (s =? p)%string = true -> starts_with s p = true.
Proof. intros s p E. apply String.eqb_eq in E. subst s. apply starts_with_spec. exists "". now rewrite app_nil_s. Qed.
Lemma skip_before : forall pre rest, Forall (fun l => ~ begins l "[package]") pre ->
  package_name_from false (pre ++ rest) = package_name_from false rest.
Proof.
  intros pre rest F. induction F as [|l pre N F IH]; [reflexivity|]. cbn [app package_name_from andb].
  destruct (trim_both is_space l =? "[package]") eqn:E. { exfalso. apply N, trimmed_begins, eqb_starts, E. }
  rewrite IH. destruct (starts_with _ _); reflexivity.
Qed.
Lemma skip_inside : forall mid rest, Forall (fun l => ~ begins l "[" /\ ~ begins l "name") mid ->
  package_name_from true (mid ++ rest) = package_name_from true rest.
Proof.
  intros mid rest F. induction F as [|l mid [N1 N2] F IH]; [reflexivity|]. cbn [app package_name_from andb].
  destruct (starts_with (trim_both is_space l) "[") eqn:E. { exfalso. apply N1, trimmed_begins, E. }
  destruct (trim_both is_space l =? "[package]") eqn:E2. { apply String.eqb_eq in E2. rewrite E2 in E. discriminate E. }
  destruct (starts_with (trim_both is_space l) "name") eqn:E3. { exfalso. apply N2, trimmed_begins, E3. }
  exact IH.
Qed.
Lemma name_char_not : forall d s, Forall name_char (chars s) -> (N_of_ascii d = 34 \/ N_of_ascii d = 39)%N ->
  Forall (fun c => Ascii.eqb d c = false) (chars s).
Proof.
  intros d s F D. eapply Forall_impl; [|exact F]. unfold name_char. intros c C. apply Ascii.eqb_neq. intros ->. lia.
Qed.
Lemma package_name_read : forall pre mid post x, package_name x ->
  Forall (fun l => ~ begins l "[package]") pre -> Forall (fun l => ~ begins l "[" /\ ~ begins l "name") mid ->
  parse_package_name (pre ++ "[package]" :: mid ++ ("name = " ++ quoted x)%string :: post) = Some x.
Proof.
  intros pre mid post x [_ X] P M. unfold parse_package_name. rewrite skip_before by exact P.
  assert (S1 : forall r, package_name_from false ("[package]" :: r) = package_name_from true r) by reflexivity.
  rewrite S1, skip_inside by exact M. unfold quoted.
  assert (T : trim_both is_space ("name = " ++ String "034" (x ++ String "034" "")) = ("name = " ++ String "034" (x ++ String "034" ""))%string).
  { change ("name = " ++ String "034" (x ++ String "034" ""))%string with (String "n" (("ame = " ++ String "034" x) ++ String "034" ""))%string.
    apply trim_both_ends; reflexivity. }
  cbn [package_name_from]. rewrite T.
  assert (T2 : trim_both is_space (" " ++ String "034" (x ++ String "034" "")) = String "034" (x ++ String "034" "")).
  { pose proof (trim_both_ends is_space "034" x "034" eq_refl eq_refl) as E. unfold trim_both in *. cbn [append trim_start] in *.
    replace (is_space " ") with true by reflexivity. exact E. }
  cbn [append String.eqb Ascii.eqb Bool.eqb starts_with strip_prefix split_once option_map fst snd andb].
  change (String " " (String "034" (x ++ String "034" ""))) with (" " ++ String "034" (x ++ String "034" ""))%string. rewrite T2.
  rewrite trim_both_quotes by (first [reflexivity|apply name_char_not; [exact X|left; reflexivity]]).
  rewrite trim_both_none by (apply name_char_not; [exact X|right; reflexivity]). reflexivity.
Qed.
