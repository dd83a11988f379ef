(** Proofs about paths and source files. *)
From Coq Require Import List String Ascii Bool Arith Lia.
From Verif Require Import Base Files SpecFiles LexProofs.
Import ListNotations.
Open Scope string_scope.
Open Scope list_scope.
Local Open Scope nat_scope.

Lemma component_eqb_eq : forall a b, component_eqb a b = true <-> a = b.
Proof.
  intros a b. destruct a, b; cbn; split; intros H; try discriminate; auto.
  - apply String.eqb_eq in H. now subst.
  - injection H as ->. apply String.eqb_refl.
Qed.

Lemma components_eqb_eq : forall a b, components_eqb a b = true <-> a = b.
Proof.
  induction a as [|x a IH]; intros [|y b]; cbn; split; intros H; try discriminate; auto.
  - apply andb_true_iff in H as [H1 H2]. apply component_eqb_eq in H1. apply IH in H2. now subst.
  - injection H as -> ->. apply andb_true_iff. split; [now apply component_eqb_eq|now apply IH].
Qed.

Lemma path_eqb_eq : forall p q, path_eqb p q = true <-> components p = components q.
Proof. intros. apply components_eqb_eq. Qed.

(** * Pieces *)

Fixpoint noslash (s : string) : Prop :=
  match s with EmptyString => True | String c t => c <> "/"%char /\ noslash t end.

(** The pieces behind a first piece. *)
Fixpoint tail_text (segs : list string) : string :=
  match segs with [] => "" | s :: t => ("/" ++ s ++ tail_text t)%string end.

Lemma segments_shape : forall p, exists s0 rest, segments p = s0 :: rest /\ p = (s0 ++ tail_text rest)%string /\
  noslash s0 /\ Forall noslash rest.
Proof.
  induction p as [|c p (s0 & rest & E & P & N & F)]; cbn [segments].
  - exists "", []. repeat split. constructor.
  - destruct (Ascii.eqb c "/") eqn:C.
    + apply eqb_true in C. subst c. exists "", (s0 :: rest). rewrite E. split; auto. split; [cbn; now rewrite P|].
      split; [exact I|]. now constructor.
    + apply eqb_false in C. rewrite E. exists (String c s0), rest. split; auto. split; [cbn; now rewrite P|]. split; auto. cbn. auto.
Qed.

Lemma segments_app : forall a s0 rest, noslash s0 -> Forall noslash rest -> a = (s0 ++ tail_text rest)%string ->
  segments a = s0 :: rest.
Proof.
  intros a s0 rest. revert a. revert s0. induction rest as [|s1 rest IH]; intros s0 a N F ->.
  - rewrite app_nil_r_s. clear F. induction s0 as [|c s0 IH]; [reflexivity|]. destruct N as [C N]. cbn [segments].
    rewrite (proj2 (Ascii.eqb_neq _ _) C). now rewrite IH.
  - inversion F; subst. cbn [tail_text]. induction s0 as [|c s0 IH2].
    + cbn [append segments]. rewrite Ascii.eqb_refl. f_equal. now apply IH.
    + destruct N as [C N]. cbn [append segments]. rewrite (proj2 (Ascii.eqb_neq _ _) C).
      specialize (IH2 N). cbn [append] in IH2. now rewrite IH2.
Qed.

Definition kept (s : string) : bool := negb (String.eqb s "" || String.eqb s ".").

Lemma segment_kept : forall s, segment_component s = if kept s then [if String.eqb s ".." then ParentDir else Normal s] else [].
Proof.
  intros s. unfold segment_component, kept. destruct (_ || _)%bool; cbn; auto. destruct (String.eqb s ".."); auto.
Qed.

Lemma kept_texts : forall segs, map component_text (flat_map segment_component segs) = filter kept segs.
Proof.
  induction segs as [|s t IH]; [reflexivity|]. cbn [flat_map filter]. rewrite map_app, IH, segment_kept.
  destruct (kept s); cbn; auto. destruct (String.eqb_spec s ".."); cbn; now subst.
Qed.

Lemma flat_kept : forall segs, flat_map segment_component segs = flat_map segment_component (filter kept segs).
Proof.
  induction segs as [|s t IH]; [reflexivity|]. cbn [flat_map filter]. rewrite IH, segment_kept. 
  destruct (kept s) eqn:K; cbn [flat_map List.app]; [|reflexivity]. now rewrite segment_kept, K.
Qed.

(** * Equal spellings have equal components *)

Lemma components_by : forall s0 rest, noslash s0 -> Forall noslash rest ->
  components (s0 ++ tail_text rest) =
  (match s0, rest with
   | EmptyString, _ :: _ => [RootDir]
   | _, _ => if String.eqb s0 "." then [CurDir] else []
   end) ++ segment_component s0 ++ flat_map segment_component rest.
Proof.
  intros s0 rest N F. unfold components. rewrite (segments_app _ s0 rest N F eq_refl). cbn [flat_map].
  destruct s0 as [|c s0].
  - destruct rest; reflexivity.
  - cbn [append is_absolute]. destruct N as [C _]. rewrite (proj2 (Ascii.eqb_neq _ _) C). reflexivity.
Qed.

(** Splitting a text in front of a slash. *)
Lemma tail_app : forall l1 l2, tail_text (l1 ++ l2) = (tail_text l1 ++ tail_text l2)%string.
Proof. induction l1; intros; cbn; auto. now rewrite IHl1, app_assoc_s. Qed.

Lemma cut : forall a b, exists s0 r1 r2, (a ++ "/" ++ b)%string = (s0 ++ tail_text (r1 ++ r2))%string /\ a = (s0 ++ tail_text r1)%string /\
  ("/" ++ b)%string = tail_text r2 /\ noslash s0 /\ Forall noslash r1 /\ Forall noslash r2 /\ r2 <> [].
Proof.
  intros a b. destruct (segments_shape a) as (s0 & r1 & _ & EA & N & F).
  destruct (segments_shape b) as (t0 & r2 & _ & EB & N2 & F2).
  exists s0, r1, (t0 :: r2). rewrite tail_app. split; [rewrite EA at 1; rewrite EB; cbn; now rewrite app_assoc_s|].
  split; auto. split; [cbn; now rewrite EB|]. split; auto. split; auto. split; [now constructor|discriminate].
Qed.

Lemma same_components : forall p q, same_path p q -> components p = components q.
Proof.
  intros p q H. induction H as [p|p q H IH|p q r H1 IH1 H2 IH2|a b|a b|a|a NE]; try congruence.
  - destruct (cut a b) as (s0 & r1 & r2 & _ & EA & EB & N & F1 & F2 & NE).
    replace (a ++ "//" ++ b)%string with (s0 ++ tail_text (r1 ++ "" :: r2))%string.
    2:{ rewrite tail_app. cbn [tail_text append]. rewrite <- EB, EA. cbn [append]. now rewrite app_assoc_s. }
    replace (a ++ "/" ++ b)%string with (s0 ++ tail_text (r1 ++ r2))%string.
    2:{ rewrite tail_app. rewrite <- EB, EA. now rewrite app_assoc_s. }
    rewrite !components_by by (try apply Forall_app; auto; split; auto; constructor; cbn; auto).
    rewrite !flat_map_app. cbn [flat_map]. destruct r1, r2; cbn; auto; congruence.
  - destruct (cut a b) as (s0 & r1 & r2 & _ & EA & EB & N & F1 & F2 & NE).
    replace (a ++ "/./" ++ b)%string with (s0 ++ tail_text (r1 ++ "." :: r2))%string.
    2:{ rewrite tail_app. cbn [tail_text append]. rewrite <- EB, EA. cbn [append]. now rewrite app_assoc_s. }
    replace (a ++ "/" ++ b)%string with (s0 ++ tail_text (r1 ++ r2))%string.
    2:{ rewrite tail_app. rewrite <- EB, EA. now rewrite app_assoc_s. }
    rewrite !components_by by (try apply Forall_app; auto; split; auto; constructor; cbn; auto; split; auto; discriminate).
    rewrite !flat_map_app. cbn [flat_map]. destruct r1, r2; cbn; auto; congruence.
  - destruct (segments_shape a) as (s0 & r1 & _ & EA & N & F).
    replace (a ++ "/.")%string with (s0 ++ tail_text (r1 ++ ["."]))%string by (rewrite tail_app, EA; cbn; now rewrite app_assoc_s).
    replace (a ++ "/")%string with (s0 ++ tail_text (r1 ++ [""]))%string by (rewrite tail_app, EA; cbn; now rewrite app_assoc_s).
    rewrite !components_by by (try apply Forall_app; auto; split; auto; constructor; cbn; auto; split; auto; discriminate).
    rewrite !flat_map_app. destruct r1; reflexivity.
  - destruct (segments_shape a) as (s0 & r1 & _ & EA & N & F).
    replace (a ++ "/")%string with (s0 ++ tail_text (r1 ++ [""]))%string by (rewrite tail_app, EA; cbn; now rewrite app_assoc_s).
    rewrite EA at 1. rewrite !components_by by (try apply Forall_app; auto; split; auto; constructor; cbn; auto).
    rewrite flat_map_app. cbn [flat_map segment_component List.app]. rewrite !app_nil_r.
    destruct s0, r1; cbn in *; auto. congruence.
Qed.

(** * Equal components mean equal spellings *)

Lemma tidy : forall rest pre, pre <> "" -> same_path (pre ++ tail_text rest) (pre ++ tail_text (filter kept rest)).
Proof.
  induction rest as [|s r IH]; intros pre NE; [apply sp_refl|]. cbn [filter]. destruct (kept s) eqn:K.
  - cbn [tail_text]. replace (pre ++ "/" ++ s ++ tail_text r)%string with ((pre ++ "/" ++ s) ++ tail_text r)%string by (now rewrite !app_assoc_s).
    replace (pre ++ "/" ++ s ++ tail_text (filter kept r))%string with ((pre ++ "/" ++ s) ++ tail_text (filter kept r))%string by (now rewrite !app_assoc_s).
    apply IH. destruct pre; discriminate.
  - unfold kept in K. apply negb_false_iff, orb_true_iff in K. rewrite !String.eqb_eq in K.
    eapply sp_trans; [|apply IH; exact NE]. cbn [tail_text]. destruct r as [|s2 r].
    + cbn [tail_text]. rewrite !app_nil_r_s. destruct K as [-> | ->].
      * now apply sp_last_slash.
      * eapply sp_trans; [apply sp_last_dot|now apply sp_last_slash].
    + cbn [tail_text]. destruct K as [-> | ->].
      * apply (sp_slashes pre (s2 ++ tail_text r)).
      * apply (sp_dot pre (s2 ++ tail_text r)).
Qed.

Lemma tidy_root : forall rest, rest <> [] ->
  same_path (tail_text rest) (match filter kept rest with [] => "/" | l => tail_text l end).
Proof.
  induction rest as [|s r IH]; intros NE; [congruence|]. cbn [filter]. destruct (kept s) eqn:K.
  - cbn [tail_text]. replace ("/" ++ s ++ tail_text r)%string with (("/" ++ s) ++ tail_text r)%string by reflexivity.
    replace ("/" ++ s ++ tail_text (filter kept r))%string with (("/" ++ s) ++ tail_text (filter kept r))%string by reflexivity.
    apply tidy. discriminate.
  - unfold kept in K. apply negb_false_iff, orb_true_iff in K. rewrite !String.eqb_eq in K.
    cbn [tail_text]. destruct r as [|s2 r].
    + cbn. destruct K as [-> | ->]; [apply sp_refl|apply (sp_last_dot "")].
    + eapply sp_trans; [|apply IH; discriminate]. cbn [tail_text]. destruct K as [-> | ->].
      * apply (sp_slashes "" (s2 ++ tail_text r)).
      * apply (sp_dot "" (s2 ++ tail_text r)).
Qed.

(** The tidy spelling given by the components. *)
Definition tidied (l : list component) : string :=
  match l with
  | RootDir :: t => match map component_text t with [] => "/" | ts => tail_text ts end
  | c :: t => (component_text c ++ tail_text (map component_text t))%string
  | [] => ""
  end.

Lemma not_root : forall segs c t, flat_map segment_component segs = c :: t -> c <> RootDir.
Proof.
  intros segs c t E ->. assert (I: In RootDir (flat_map segment_component segs)) by (rewrite E; now left).
  apply in_flat_map in I as (s & _ & I). rewrite segment_kept in I. destruct (kept s); cbn in I; auto.
  destruct I as [I|[]]. destruct (String.eqb s ".."); discriminate.
Qed.

Lemma tidied_same : forall p, same_path p (tidied (components p)).
Proof.
  intros p. destruct (segments_shape p) as (s0 & rest & _ & -> & N & F). rewrite components_by by auto.
  destruct s0 as [|c s0].
  - destruct rest as [|s1 rest]; [apply sp_refl|].
    change (segment_component "") with (@nil component). cbn [List.app append]. unfold tidied. rewrite kept_texts.
    apply (tidy_root (s1 :: rest)). discriminate.
  - set (s := String c s0) in *. assert (NE: s <> "") by discriminate.
    assert (T: tidied ((if String.eqb s "." then [CurDir] else []) ++ segment_component s ++ flat_map segment_component rest)
      = (s ++ tail_text (filter kept rest))%string).
    { destruct (String.eqb_spec s ".") as [E|E].
      - rewrite E. change (segment_component ".") with (@nil component). cbn [List.app tidied component_text]. now rewrite kept_texts.
      - rewrite segment_kept. unfold kept. rewrite (proj2 (String.eqb_neq _ _) NE), (proj2 (String.eqb_neq _ _) E).
        cbn [negb orb List.app]. unfold tidied. destruct (String.eqb_spec s "..") as [E2|E2].
        + rewrite E2. cbn [component_text]. now rewrite kept_texts.
        + cbn [component_text]. now rewrite kept_texts. }
    replace (match s with | EmptyString => match rest with | [] => if s =? "." then [CurDir] else [] | _ :: _ => [RootDir] end
      | String _ _ => if s =? "." then [CurDir] else [] end)%string with (if String.eqb s "." then [CurDir] else []) by reflexivity.
    rewrite T. apply tidy. exact NE.
Qed.

Lemma path_eqb_same : forall p q, path_eqb p q = true <-> same_path p q.
Proof.
  intros p q. rewrite path_eqb_eq. split; [|apply same_components].
  intros E. eapply sp_trans; [apply tidied_same|]. rewrite E. apply sp_sym, tidied_same.
Qed.

(** * Loading *)

(** Files are numbered by their places and have different names. *)
Definition well_kept (s : source_files) : Prop :=
  (forall i f, nth_error (sf_list s) i = Some f -> sf_id f = i) /\
  (forall i j f g, nth_error (sf_list s) i = Some f -> nth_error (sf_list s) j = Some g ->
    path_eqb (sf_name f) (sf_name g) = true -> i = j).

Lemma find_name_some : forall l idx name i, find_name l idx name = Some i ->
  exists f, idx <= i /\ nth_error l (i - idx) = Some f /\ path_eqb (sf_name f) name = true.
Proof.
  induction l as [|f l IH]; intros idx name i H; [discriminate|]. cbn [find_name] in H.
  destruct (path_eqb (sf_name f) name) eqn:E.
  - injection H as <-. exists f. rewrite Nat.sub_diag. auto.
  - apply IH in H as (g & L & N & E2). exists g. split; [lia|]. split; auto.
    replace (i - idx) with (S (i - S idx)) by lia. exact N.
Qed.

Lemma find_name_none : forall l idx name, find_name l idx name = None ->
  forall i f, nth_error l i = Some f -> path_eqb (sf_name f) name = false.
Proof.
  induction l as [|f l IH]; intros idx name H i g N; [destruct i; discriminate|]. cbn [find_name] in H.
  destruct (path_eqb (sf_name f) name) eqn:E; [discriminate|].
  destruct i; [injection N as <-; exact E|]. eapply IH; eauto.
Qed.

Lemma path_eqb_sym : forall p q, path_eqb p q = path_eqb q p.
Proof.
  intros p q. destruct (path_eqb p q) eqn:E, (path_eqb q p) eqn:F; auto.
  - apply path_eqb_eq in E. symmetry in E. apply path_eqb_eq in E. congruence.
  - apply path_eqb_eq in F. symmetry in F. apply path_eqb_eq in F. congruence.
Qed.

(** What a successful load does. *)
Lemma load_inv : forall w s root name f s1, well_kept s -> load w s root name = Ok (f, s1) -> exists p,
  path_of w s root name = Ok p /\ well_kept s1 /\ path_eqb (sf_name f) p = true /\
  nth_error (sf_list s1) (sf_id f) = Some f /\ working_dir s1 = working_dir s /\
  ((s1 = s) \/ (sf_list s1 = sf_list s ++ [f] /\ read_bytes w p = Some (sf_contents f) /\ sf_name f = p /\
     forall i g, nth_error (sf_list s) i = Some g -> path_eqb (sf_name g) p = false)).
Proof.
  intros w s root name f s1 [WI WU] H. unfold load in H. destruct (path_of w s root name) as [p| | |]; try discriminate.
  cbn [bind] in H. exists p. split; auto. unfold get_id in H. destruct (find_name (sf_list s) 0 p) as [i|] eqn:FN.
  - apply find_name_some in FN as (g & _ & N & E). rewrite Nat.sub_0_r in N. rewrite N in H. injection H as <- <-.
    split; [split; auto|]. split; auto. split; [now rewrite (WI _ _ N)|]. auto.
  - assert (NN := find_name_none _ _ _ FN). unfold load_file in H. destruct (read_bytes w p) as [b|] eqn:RB; [|discriminate].
    destruct (valid_utf8 b); [|discriminate]. cbn [bind] in H. injection H as <- <-. cbn [sf_list sf_id sf_name sf_contents working_dir].
    assert (NTH: nth_error (sf_list s ++ [mkFile (List.length (sf_list s)) p b]) (List.length (sf_list s)) = Some (mkFile (List.length (sf_list s)) p b)).
    { rewrite nth_error_app2, Nat.sub_diag by lia. reflexivity. }
    assert (CASES: forall i g, nth_error (sf_list s ++ [mkFile (List.length (sf_list s)) p b]) i = Some g ->
      nth_error (sf_list s) i = Some g \/ (i = List.length (sf_list s) /\ g = mkFile (List.length (sf_list s)) p b)).
    { intros i g N. destruct (lt_dec i (List.length (sf_list s))) as [L|L].
      - rewrite nth_error_app1 in N by lia. auto.
      - rewrite nth_error_app2 in N by lia. destruct (i - List.length (sf_list s)) as [|k] eqn:K.
        + injection N as <-. right. split; auto. lia.
        + destruct k; discriminate. }
    split.
    { split.
      - intros i g N. apply CASES in N as [N|[-> ->]]; auto. 
      - intros i j g h N1 N2 E. apply CASES in N1, N2. destruct N1 as [N1|[-> ->]], N2 as [N2|[-> ->]]; eauto.
        + cbn [sf_name] in E. rewrite (NN _ _ N1) in E. discriminate.
        + cbn [sf_name] in E. rewrite path_eqb_sym, (NN _ _ N2) in E. discriminate. }
    split; [apply path_eqb_eq; reflexivity|]. split; [exact NTH|]. split; [reflexivity|]. right. auto.
Qed.

Lemma new_well : forall wd, well_kept (new_files wd).
Proof. intros wd. split; intros i; [intros f|intros j f g]; destruct i; discriminate. Qed.

(** Files stay where they are. *)
Definition grows (s t : source_files) : Prop :=
  working_dir t = working_dir s /\ forall i f, nth_error (sf_list s) i = Some f -> nth_error (sf_list t) i = Some f.

Lemma grows_refl : forall s, grows s s.
Proof. split; auto. Qed.

Lemma load_grows : forall w s root name f s1, well_kept s -> load w s root name = Ok (f, s1) -> grows s s1.
Proof.
  intros w s root name f s1 W H. destruct (load_inv _ _ _ _ _ _ W H) as (p & _ & _ & _ & _ & D & [->|(E & _)]); [apply grows_refl|].
  split; auto. intros i g N. rewrite E. rewrite nth_error_app1; auto. apply nth_error_Some. congruence.
Qed.

Lemma after_well : forall l s, well_kept s -> well_kept (after s l) /\ grows s (after s l).
Proof.
  induction l as [|r l IH]; intros s W; cbn [after]; [split; [exact W|apply grows_refl]|].
  destruct (load (rq_fs r) s (rq_root r) (rq_name r)) as [[f s1]| | |] eqn:E; auto.
  destruct (load_inv _ _ _ _ _ _ W E) as (p & _ & W1 & _). assert (G := load_grows _ _ _ _ _ _ W E).
  destruct (IH s1 W1) as [W2 [D2 G2]]. split; auto. destruct G as [D1 G1]. split; [congruence|]. auto.
Qed.

(** A file that is there is found again. *)
Lemma load_again : forall w s root name p f, well_kept s -> path_of w s root name = Ok p ->
  nth_error (sf_list s) (sf_id f) = Some f -> path_eqb (sf_name f) p = true -> load w s root name = Ok (f, s).
Proof.
  intros w s root name p f [WI WU] P N E. unfold load. rewrite P. cbn [bind]. unfold get_id.
  destruct (find_name (sf_list s) 0 p) as [i|] eqn:FN.
  - apply find_name_some in FN as (g & _ & N2 & E2). rewrite Nat.sub_0_r in N2.
    assert (i = sf_id f).
    { apply (WU _ _ _ _ N2 N). apply path_eqb_eq. apply path_eqb_eq in E, E2. congruence. }
    subst i. now rewrite N.
  - rewrite (find_name_none _ _ _ FN _ _ N) in E. discriminate.
Qed.
