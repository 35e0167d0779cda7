(** Proofs about names that become paths. *)
From Coq Require Import String Ascii List Bool Arith Lia.
From Verif Require Import Base PathModel PathSpec.
Import ListNotations.
Open Scope string_scope.
Open Scope list_scope.

Lemma same_path_spec : forall p q, same_path p q = true <-> p = q.
Proof.
  induction p as [|a p IH]; intros [|b q]; cbn; try (split; [discriminate|intros H; discriminate H]).
  - tauto.
  - rewrite andb_true_iff, String.eqb_eq, IH. split; [intros [-> ->]; reflexivity|intros H; injection H; auto].
Qed.
Lemma same_path_refl : forall p, same_path p p = true. Proof. intros. now apply same_path_spec. Qed.
Lemma same_path_ne : forall p q, p <> q -> same_path p q = false.
Proof. intros p q N. destruct (same_path p q) eqn:E; [|reflexivity]. apply same_path_spec in E. contradiction. Qed.
Lemma starts_with_spec : forall p q, starts_with p q = true <-> exists r, q = p ++ r.
Proof.
  induction p as [|a p IH]; intros [|b q]; cbn.
  - split; [exists []; reflexivity|reflexivity].
  - split; [intros _; exists (b :: q); reflexivity|reflexivity].
  - split; [discriminate|intros [r H]; discriminate H].
  - rewrite andb_true_iff, String.eqb_eq, IH. split.
    + intros [-> [r ->]]. now exists r.
    + intros [r H]. injection H as -> ->. split; [reflexivity|now exists r].
Qed.

(** ** resolving a join *)
Lemma split_not_nil : forall s, split s <> [].
Proof. induction s as [|c r IH]; cbn; [discriminate|]. destruct (Ascii.eqb c slash); [discriminate|]. destruct (split r); [contradiction|discriminate]. Qed.
Lemma split_app : forall a b, split (a ++ String slash b) = split a ++ split b.
Proof.
  induction a as [|c a IH]; intros b.
  - cbn [append split]. rewrite Ascii.eqb_refl. reflexivity.
  - cbn [append split]. rewrite IH. destruct (Ascii.eqb c slash); [reflexivity|].
    pose proof (split_not_nil a) as N. destruct (split a) as [|h t]; [contradiction|]. reflexivity.
Qed.
Lemma split_free : forall s, slash_free s -> split s = [s].
Proof.
  induction s as [|c r IH]; intros F; [reflexivity|]. cbn [split].
  destruct (Ascii.eqb c slash) eqn:E. { apply Ascii.eqb_eq in E. subst c. exfalso. apply F. now left. }
  rewrite IH; [reflexivity|]. intros I. apply F. now right.
Qed.
Lemma free_relative : forall s, slash_free s -> is_absolute s = false.
Proof.
  intros [|c r] F; cbn; [reflexivity|]. destruct (Ascii.eqb c slash) eqn:E; [|reflexivity].
  apply Ascii.eqb_eq in E. subst c. exfalso. apply F. now left.
Qed.
Lemma ends_slash : forall s, ends_with_slash s = true -> exists d, s = (d ++ "/")%string.
Proof.
  induction s as [|c r IH]; intros H; [discriminate H|]. destruct r as [|c' r'].
  - cbn in H. apply Ascii.eqb_eq in H. subst c. exists "". reflexivity.
  - destruct (IH H) as [d ->]. now exists (String c d).
Qed.
Lemma app_assoc_s : forall a b c : string, ((a ++ b) ++ c)%string = (a ++ (b ++ c))%string.
Proof. induction a as [|x a IH]; intros; cbn; [reflexivity|]. now rewrite IH. Qed.
Lemma resolve_join : forall dir name, is_absolute name = false ->
  resolve (join dir name) = fold_left step (split name) (resolve dir).
Proof.
  intros dir name A. unfold join. rewrite A. unfold resolve.
  destruct (dir =? "")%string eqn:E; cbn [orb].
  - apply String.eqb_eq in E. subst dir. reflexivity.
  - destruct (ends_with_slash dir) eqn:S.
    + destruct (ends_slash _ S) as [d ->]. rewrite app_assoc_s. cbn [append].
      change (String "/" name) with (String slash name). change "/"%string with (String slash ""). rewrite !split_app, !fold_left_app. reflexivity.
    + cbn [append]. change (String "/" name) with (String slash name). rewrite split_app, fold_left_app. reflexivity.
Qed.
Lemma step_plain : forall at_ c, plain c -> step at_ c = at_ ++ [c].
Proof.
  intros at_ c (N1 & N2 & N3 & _). unfold step. apply String.eqb_neq in N1. apply String.eqb_neq in N2. apply String.eqb_neq in N3.
  now rewrite N1, N2, N3.
Qed.
Lemma join_plain : forall dir name, plain name -> resolve (join dir name) = resolve dir ++ [name].
Proof.
  intros dir name P. pose proof P as (_ & _ & _ & F). rewrite resolve_join by now apply free_relative.
  rewrite split_free by exact F. cbn [fold_left]. now apply step_plain.
Qed.
Lemma chars_app : forall a b, chars (a ++ b) = chars a ++ chars b.
Proof. induction a as [|c a IH]; intros; cbn; [reflexivity|]. now rewrite IH. Qed.
Lemma plain_dec_computes : forall s, (s <> "") -> s <> "." -> s <> ".." -> existsb (Ascii.eqb slash) (chars s) = false -> plain s.
Proof.
  intros s A B C D. repeat split; auto. intros I. assert (existsb (Ascii.eqb slash) (chars s) = true) as X; [|congruence].
  apply existsb_exists. exists slash. split; [exact I|apply Ascii.eqb_refl].
Qed.
Lemma plain_hdt : forall n, slash_free n -> plain (n ++ ".hdt").
Proof.
  intros n F. repeat split; try (destruct n as [|? [|? [|? ?]]]; discriminate).
  unfold slash_free. rewrite chars_app, in_app_iff. intros [H|H]; [contradiction|]. cbn in H.
  repeat (destruct H as [H|H]; [discriminate H|]). exact H.
Qed.
Lemma plain_prefixed : forall n, slash_free n -> plain ("hodu-backend-" ++ n ++ "-plugin").
Proof.
  intros n F. repeat split; try discriminate. unfold slash_free. rewrite !chars_app, !in_app_iff.
  intros [H|[H|H]]; [|contradiction|]; cbn in H; repeat (destruct H as [H|H]; [discriminate H|]); exact H.
Qed.
Lemma append_inj_r : forall a b c : string, (a ++ c)%string = (b ++ c)%string -> a = b.
Proof.
  assert (L : forall a b, String.length (a ++ b) = String.length a + String.length b) by (induction a; intros; cbn; auto).
  induction a as [|x a IH]; intros [|y b] c H; cbn in H; [reflexivity| | |].
  - exfalso. apply (f_equal String.length) in H. cbn in H. rewrite L in H. lia.
  - exfalso. apply (f_equal String.length) in H. cbn in H. rewrite L in H. lia.
  - injection H as -> H. f_equal. eapply IH; eassumption.
Qed.

(** ** files *)
Lemma read_write_same : forall {B} p (b : B) fs, read p (write p b fs) = Some b.
Proof. intros. cbn. now rewrite same_path_refl. Qed.
Lemma read_filter : forall {B} p q (fs : files B), p <> q -> read q (filter (fun f => negb (same_path p (fst f))) fs) = read q fs.
Proof.
  intros B p q fs N. induction fs as [|[r b] fs IH]; [reflexivity|]. cbn [filter fst].
  destruct (same_path p r) eqn:E; cbn [negb].
  - apply same_path_spec in E. subst r. cbn [read]. rewrite (same_path_ne q p) by congruence. exact IH.
  - cbn [read]. destruct (same_path q r); [reflexivity|exact IH].
Qed.
Lemma read_write_other : forall {B} p q (b : B) fs, p <> q -> read q (write p b fs) = read q fs.
Proof. intros B p q b fs N. unfold write. cbn [read]. rewrite (same_path_ne q p) by congruence. now apply read_filter. Qed.
Lemma in_remove : forall {B} p (fs : files B) f, In f (remove_dir_all p fs) <-> In f fs /\ ~ in_dir p (fst f).
Proof.
  intros B p fs f. unfold remove_dir_all. rewrite filter_In. split; intros [I H]; (split; [exact I|]).
  - intros [r [N E]]. apply orb_true_iff in H. destruct H as [H|H].
    + apply negb_true_iff in H. assert (starts_with p (fst f) = true) by (apply starts_with_spec; now exists r). congruence.
    + apply same_path_spec in H. rewrite <- H in E. apply N. apply (f_equal (@List.length _)) in E. rewrite app_length in E. destruct r; [reflexivity|cbn in E; lia].
  - apply orb_true_iff. destruct (starts_with p (fst f)) eqn:S; [|now left]. right. apply starts_with_spec in S. destruct S as [r E].
    destruct r as [|x r]. { rewrite app_nil_r in E. now apply same_path_spec. }
    exfalso. apply H. exists (x :: r). split; [discriminate|exact E].
Qed.
Lemma exists_spec : forall {B} p (fs : files B), exists_ p fs = true <-> exists f, In f fs /\ exists r, fst f = p ++ r.
Proof.
  intros. unfold exists_. rewrite existsb_exists. split; intros [f [I H]]; exists f; (split; [exact I|]); now apply starts_with_spec.
Qed.
Lemma not_exists_in : forall {B} p (fs : files B) f, exists_ p fs = false -> In f fs -> ~ in_dir p (fst f).
Proof.
  intros B p fs f E I [r [_ H]]. assert (exists_ p fs = true) as X; [|congruence]. apply exists_spec. exists f. split; [exact I|now exists r].
Qed.
Lemma read_remove : forall {B} p (fs : files B) q, ~ in_dir p q -> read q (remove_dir_all p fs) = read q fs.
Proof.
  intros B p fs q N. unfold remove_dir_all. induction fs as [|[r b] fs IH]; [reflexivity|]. cbn [filter fst].
  destruct (negb (starts_with p r) || same_path p r) eqn:E.
  - cbn [read]. destruct (same_path q r); [reflexivity|exact IH].
  - rewrite IH. cbn [read]. destruct (same_path q r) eqn:S; [|reflexivity]. apply same_path_spec in S. subst r. exfalso.
    apply orb_false_iff in E. destruct E as [E1 E2]. apply negb_false_iff in E1. apply starts_with_spec in E1. destruct E1 as [r ->].
    apply N. exists r. split; [|reflexivity]. intros ->. rewrite app_nil_r, same_path_refl in E2. discriminate.
Qed.

(** ** Runtime::run *)
Lemma input_path_resolved : forall tmp n, slash_free n ->
  resolve (input_path tmp n) = resolve tmp ++ ["hodu_runtime"; n ++ ".hdt"]%string.
Proof.
  intros tmp n F. unfold input_path. rewrite join_plain by now apply plain_hdt.
  rewrite join_plain by (apply plain_dec_computes; try discriminate; reflexivity). rewrite <- app_assoc. reflexivity.
Qed.
Lemma save_inputs_other : forall {B} tmp (inputs : list (string * B)) fs p,
  (forall n, In n (map fst inputs) -> resolve (input_path tmp n) <> p) -> read p (save_inputs tmp inputs fs) = read p fs.
Proof.
  intros B tmp. induction inputs as [|[n b] r IH]; intros fs p N; [reflexivity|]. cbn [save_inputs]. rewrite IH.
  - apply read_write_other. apply N. now left.
  - intros m I. apply N. now right.
Qed.
Lemma inputs_read : forall {B} tmp (inputs : list (string * B)) fs,
  NoDup (map fst inputs) -> (forall n, In n (map fst inputs) -> slash_free n) ->
  plugin_reads (tensor_inputs tmp inputs) (save_inputs tmp inputs fs) = map (fun i => (fst i, Some (snd i))) inputs.
Proof.
  intros B tmp. unfold plugin_reads, tensor_inputs. induction inputs as [|[n b] r IH]; intros fs D F; [reflexivity|].
  cbn [map fst snd save_inputs] in *. inversion D as [|x l D1 D2]; subst. f_equal.
  - f_equal. rewrite save_inputs_other; [apply read_write_same|]. intros m I E.
    rewrite !input_path_resolved in E by (apply F; auto with datatypes). apply app_inv_head in E. injection E as E.
    apply append_inj_r in E. subst m. contradiction.
  - apply IH; [assumption|]. intros m I. apply F. now right.
Qed.
Lemma inputs_outside : forall {B} tmp (inputs : list (string * B)) fs p,
  (forall n, In n (map fst inputs) -> slash_free n) -> ~ in_dir (resolve tmp ++ ["hodu_runtime"]) p ->
  read p (save_inputs tmp inputs fs) = read p fs.
Proof.
  intros B tmp inputs fs p F N. apply save_inputs_other. intros n I E. rewrite input_path_resolved in E by now apply F.
  apply N. exists [(n ++ ".hdt")%string]. split; [discriminate|]. rewrite <- E, <- app_assoc. reflexivity.
Qed.

(** ** clean *)
Lemma hodu_resolved : forall home, resolve (join home ".hodu") = resolve home ++ [".hodu"].
Proof. intros. apply join_plain. apply plain_dec_computes; try discriminate; reflexivity. Qed.
Lemma cache_resolved : forall home, resolve (join (join home ".hodu") "cache") = resolve home ++ [".hodu"; "cache"].
Proof. intros. rewrite join_plain, hodu_resolved, <- app_assoc; [reflexivity|]. apply plain_dec_computes; try discriminate; reflexivity. Qed.
Lemma deeper : forall p q r, in_dir (p ++ q) r -> exists t, r = p ++ t.
Proof. intros p q r [s [_ ->]]. exists (q ++ s). now rewrite <- app_assoc. Qed.
Lemma no_hodu : forall {B} home (fs : files B) q f, exists_ (resolve home ++ [".hodu"]) fs = false ->
  In f fs -> ~ in_dir ((resolve home ++ [".hodu"]) ++ q) (fst f).
Proof.
  intros B home fs q f E I D. destruct (deeper _ _ _ D) as [t T]. assert (exists_ (resolve home ++ [".hodu"]) fs = true) as X; [|congruence].
  apply exists_spec. exists f. split; [exact I|now exists t].
Qed.
Lemma clean_dry : forall {B} home b al (fs : files B), clean home (mkClean true b al) fs = fs.
Proof.
  intros. unfold clean, clean_directory. cbn [dry_run backend all]. destruct (negb _); [reflexivity|]. destruct al; [reflexivity|].
  destruct b; repeat match goal with |- context [if ?c then _ else _] => destruct c end; reflexivity.
Qed.
Lemma clean_all : forall {B} home b (fs : files B) f,
  In f (clean home (mkClean false b true) fs) <-> In f fs /\ ~ in_dir (resolve home ++ [".hodu"]) (fst f).
Proof.
  intros B home b fs f. unfold clean, clean_directory. cbn [dry_run backend all]. rewrite hodu_resolved.
  destruct (exists_ (resolve home ++ [".hodu"]) fs) eqn:E; cbn [negb].
  - apply in_remove.
  - split; [|tauto]. intros I. split; [exact I|]. exact (not_exists_in _ _ _ E I).
Qed.
Lemma clean_cache : forall {B} home (fs : files B) f,
  In f (clean home (mkClean false None false) fs) <-> In f fs /\ ~ in_dir (resolve home ++ [".hodu"; "cache"]) (fst f).
Proof.
  intros B home fs f. unfold clean, clean_directory. cbn [dry_run backend all]. rewrite hodu_resolved, cache_resolved.
  destruct (exists_ (resolve home ++ [".hodu"]) fs) eqn:E; cbn [negb].
  - destruct (exists_ (resolve home ++ [".hodu"; "cache"]) fs) eqn:E2; [apply in_remove|].
    split; [|tauto]. intros I. split; [exact I|]. exact (not_exists_in _ _ _ E2 I).
  - split; [|tauto]. intros I. split; [exact I|].
    change [".hodu"; "cache"] with ([".hodu"] ++ ["cache"]). rewrite app_assoc. now apply (no_hodu home fs).
Qed.
Lemma clean_backend : forall {B} home b (fs : files B) f, plain b ->
  let dir n := resolve home ++ [".hodu"; "cache"; n] in
  In f (clean home (mkClean false (Some b) false) fs) <->
  In f fs /\ ~ in_dir (dir b) (fst f) /\
  ((forall g, In g fs -> fst g <> dir b /\ ~ in_dir (dir b) (fst g)) -> ~ in_dir (dir ("hodu-backend-" ++ b ++ "-plugin")%string) (fst f)).
Proof.
  intros B home b fs f P dir. unfold clean, clean_directory. cbn [dry_run backend all].
  assert (D : forall n, plain n -> resolve (join (join (join home ".hodu") "cache") n) = dir n).
  { intros n Pn. rewrite join_plain, cache_resolved, <- app_assoc by exact Pn. reflexivity. }
  assert (P2 : plain ("hodu-backend-" ++ b ++ "-plugin")) by (apply plain_prefixed; apply P).
  rewrite hodu_resolved, (D b P), (D _ P2).
  destruct (exists_ (resolve home ++ [".hodu"]) fs) eqn:E; cbn [negb].
  - destruct (exists_ (dir b) fs) eqn:E1.
    + rewrite in_remove. split; intros [I H]; (split; [exact I|]); [|tauto]. split; [exact H|]. intros K. exfalso.
      apply exists_spec in E1. destruct E1 as [g [G [r R]]]. destruct (K g G) as [K1 K2]. destruct r as [|x r].
      * rewrite app_nil_r in R. contradiction.
      * apply K2. exists (x :: r). split; [discriminate|exact R].
    + assert (K : forall g, In g fs -> fst g <> dir b /\ ~ in_dir (dir b) (fst g)).
      { intros g G. split; [|exact (not_exists_in _ _ _ E1 G)]. intros Q. assert (exists_ (dir b) fs = true) as X; [|congruence].
        apply exists_spec. exists g. split; [exact G|]. exists []. now rewrite app_nil_r. }
      destruct (exists_ (dir ("hodu-backend-" ++ b ++ "-plugin")%string) fs) eqn:E2.
      * rewrite in_remove. split.
        -- intros [I H]. split; [exact I|]. split; [apply K, I|]. intros _; exact H.
        -- intros (I & _ & H). split; [exact I|]. apply H. exact K.
      * split; [|tauto]. intros I. split; [exact I|]. split; [apply K, I|]. intros _. exact (not_exists_in _ _ _ E2 I).
  - split; [|tauto]. intros I. split; [exact I|].
    assert (N : forall n, ~ in_dir (dir n) (fst f)).
    { intros n. unfold dir. change [".hodu"; "cache"; n] with ([".hodu"] ++ ["cache"; n]). rewrite app_assoc. now apply (no_hodu home fs). }
    split; [apply N|]. intros _. apply N.
Qed.

(** ** plugins *)
Lemma installed : forall {B} dir name binary (c : B) manifest fs,
  plain name -> plain binary -> binary <> "manifest.json" -> binary_of dir name binary (install_files dir name binary c manifest fs) = Some c.
Proof.
  intros B dir name binary c manifest fs P Pb N. unfold binary_of, install_files.
  assert (M : plain "manifest.json") by (apply plain_dec_computes; try discriminate; reflexivity).
  destruct manifest as [m|]; [|apply read_write_same].
  rewrite read_write_other; [apply read_write_same|]. rewrite !join_plain by assumption. intros E. apply app_inv_head in E. injection E as E. congruence.
Qed.
Lemma install_outside : forall {B} dir name binary (c : B) manifest fs p,
  plain name -> plain binary -> ~ in_dir (resolve dir ++ [name]) p -> read p (install_files dir name binary c manifest fs) = read p fs.
Proof.
  intros B dir name binary c manifest fs p P Pb N. unfold install_files.
  assert (M : plain "manifest.json") by (apply plain_dec_computes; try discriminate; reflexivity).
  assert (O : forall x, plain x -> resolve (join (join dir name) x) <> p).
  { intros x X E. apply N. exists [x]. split; [discriminate|]. rewrite <- E, !join_plain by assumption. reflexivity. }
  destruct manifest; repeat (rewrite read_write_other; [|now apply O]); reflexivity.
Qed.
Lemma removed : forall {B} dir name (fs : files B) f, plain name ->
  In f (remove_files dir name fs) <-> In f fs /\ ~ in_dir (resolve dir ++ [name]) (fst f).
Proof.
  intros B dir name fs f P. unfold remove_files. rewrite join_plain by exact P.
  destruct (exists_ (resolve dir ++ [name]) fs) eqn:E; [apply in_remove|].
  split; [|tauto]. intros I. split; [exact I|]. exact (not_exists_in _ _ _ E I).
Qed.
Lemma other_plugin : forall {B} dir name other binary (fs : files B), plain name -> plain other -> plain binary -> name <> other ->
  binary_of dir other binary (remove_files dir name fs) = binary_of dir other binary fs.
Proof.
  intros B dir name other binary fs P Po Pb N. unfold binary_of, remove_files. rewrite !join_plain by assumption.
  destruct (exists_ _ fs); [|reflexivity]. apply read_remove. intros [r [_ E]]. rewrite <- !app_assoc in E. apply app_inv_head in E.
  injection E as E _. congruence.
Qed.
