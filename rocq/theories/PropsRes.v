(** C87: phik.resources over every history of the file system. *)
From Coq Require Import String Ascii List Bool Lia.
Import ListNotations.
From Verif Require Import Base BinModel ReportModel ResModel.
Open Scope list_scope.

(** ** specification *)
(** the operation creates or removes this directory entry *)
Definition touches (o : op) (d n : string) : Prop := match o with OCreate d' n' _ | ORemove d' n' => d' = d /\ n' = n | _ => False end.
(** after the history the directory d has the entry n; r tells whether it resolves to something *)
Definition there (h : list op) (d n : string) (r : bool) : Prop :=
  exists h1 h2, h = h1 ++ OCreate d n r :: h2 /\ forall o, In o h2 -> ~ touches o d n.
Fixpoint slash_free (s : string) : Prop := match s with EmptyString => True | String c r => c <> "/"%char /\ slash_free r end.
(** names of directory entries never contain a slash *)
Definition posix (h : list op) : Prop := forall d n r, In (OCreate d n r) h -> slash_free n.
Definition never_imported (h : list op) : Prop := ~ In OImport h.

(** ** the file system *)
Section Dirs.
Variables data_dir notebook_dir : string.
Notation play := (play data_dir notebook_dir). Notation step := (step data_dir notebook_dir). Notation answer := (answer data_dir notebook_dir).
Definition start : fs * option mods := ([], None).
Definition world (h : list op) := fst (play start h).
Lemma play_app : forall h1 h2 w, fst (play w (h1 ++ h2)) = fst (play (fst (play w h1)) h2).
Proof.
  induction h1 as [|o h1 IH]; intros h2 w; [reflexivity|]. cbn [ResModel.play app].
  destruct (step w o) as [w1 a]. specialize (IH h2 w1). destruct (play w1 (h1 ++ h2)) as [x y]. destruct (play w1 h1) as [u v]. cbn [fst] in *. exact IH.
Qed.
Lemma world_snoc : forall h o, world (h ++ [o]) = fst (step (world h) o).
Proof.
  intros h o. unfold world. rewrite play_app. cbn [ResModel.play]. destruct (step (fst (play start h)) o) as [w a]. reflexivity.
Qed.
Lemma same_entry_true : forall d n e, same_entry d n e = true <-> fst e = (d, n).
Proof.
  intros d n [[d' n'] r]. cbn. rewrite andb_true_iff, !String.eqb_eq. split; [intros [-> ->]; reflexivity|intros H; injection H; auto].
Qed.
Lemma there_snoc : forall h o d n r, there (h ++ [o]) d n r <-> o = OCreate d n r \/ (~ touches o d n /\ there h d n r).
Proof.
  intros h o d n r. split.
  - intros (h1 & h2 & E & NT). destruct h2 as [|x h2] using rev_ind.
    + apply app_inj_tail in E. destruct E as [_ E]. left; exact E.
    + clear IHh2. assert (E' : h ++ [o] = (h1 ++ OCreate d n r :: h2) ++ [x]) by (rewrite E, <- app_assoc; reflexivity). apply app_inj_tail in E'. destruct E' as [E1 ->].
      right. split; [apply NT, in_or_app; right; left; reflexivity|]. exists h1, h2. split; [exact E1|]. intros z Hz. apply NT, in_or_app. left; exact Hz.
  - intros [->|[NT (h1 & h2 & E & N2)]].
    + exists h, []. split; [reflexivity|]. intros z [].
    + exists h1, (h2 ++ [o]). split; [rewrite E, <- app_assoc; reflexivity|]. intros z Hz. apply in_app_or in Hz. destruct Hz as [Hz|[<-|[]]]; auto.
Qed.
Lemma fs_there : forall h d n r, In (d, n, r) (fst (world h)) <-> there h d n r.
Proof.
  induction h as [|o h IH] using rev_ind; intros d n r.
  - split; [intros []|]. intros (h1 & h2 & E & _). destruct h1; discriminate.
  - rewrite world_snoc, there_snoc. destruct (world h) as [s m] eqn:W. cbn [fst] in *. destruct o as [d' n' r'|d' n'| |q|q|k q]; cbn [ResModel.step fst touches].
    + cbn [In]. rewrite filter_In, IH, negb_true_iff. split.
      * intros [E|[T NE]]; [left; injection E as -> -> ->; reflexivity|right]. split; [|exact T]. intros [-> ->]. assert (same_entry d n (d, n, r) = true) by (apply same_entry_true; reflexivity). congruence.
      * intros [E|[NT T]]; [left; injection E as -> -> ->; reflexivity|right]. split; [exact T|]. apply not_true_is_false. intros C. apply same_entry_true in C. injection C as <- <-. apply NT; auto.
    + rewrite filter_In, IH, negb_true_iff. split.
      * intros [T NE]. right. split; [|exact T]. intros [-> ->]. assert (same_entry d n (d, n, r) = true) by (apply same_entry_true; reflexivity). congruence.
      * intros [E|[NT T]]; [discriminate|]. split; [exact T|]. apply not_true_is_false. intros C. apply same_entry_true in C. injection C as <- <-. apply NT; auto.
    + rewrite IH. split; [intros T; right; auto|intros [E|[_ T]]; [discriminate|exact T]].
    + rewrite IH. split; [intros T; right; auto|intros [E|[_ T]]; [discriminate|exact T]].
    + rewrite IH. split; [intros T; right; auto|intros [E|[_ T]]; [discriminate|exact T]].
    + rewrite IH. split; [intros T; right; auto|intros [E|[_ T]]; [discriminate|exact T]].
Qed.
(** the dictionaries are those of the first import *)
Lemma mods_before : forall h, never_imported h -> snd (world h) = None.
Proof.
  induction h as [|o h IH] using rev_ind; intros N; [reflexivity|]. rewrite world_snoc. assert (N' : never_imported h) by (intros C; apply N, in_or_app; left; exact C). specialize (IH N').
  destruct (world h) as [s m]. cbn [snd] in IH. subst m. destruct o; try reflexivity. exfalso. apply N, in_or_app. right; left; reflexivity.
Qed.
Lemma mods_after : forall h1 h2, never_imported h1 ->
  snd (world (h1 ++ OImport :: h2)) = Some (mkMods (snapshot (fst (world h1)) data_dir (fun _ => true)) (snapshot (fst (world h1)) notebook_dir (ends_with ".ipynb"))).
Proof.
  intros h1 h2 N. induction h2 as [|o h2 IH] using rev_ind.
  - rewrite world_snoc. pose proof (mods_before h1 N) as M. destruct (world h1) as [s m]. cbn [snd fst] in *. subst m. reflexivity.
  - replace (h1 ++ OImport :: h2 ++ [o]) with ((h1 ++ OImport :: h2) ++ [o]) by (rewrite <- app_assoc; reflexivity). rewrite world_snoc. destruct (world (h1 ++ OImport :: h2)) as [s m]. cbn [snd fst] in *. subst m.
    destruct o; reflexivity.
Qed.
Lemma append_nil : forall a b, append a b = a -> b = EmptyString.
Proof. intros a b H. apply (f_equal String.length) in H. assert (L : forall x y, String.length (append x y) = String.length x + String.length y) by (induction x; intros; cbn; auto). rewrite L in H. destruct b; [reflexivity|cbn in H; lia]. Qed.
Lemma slash_free_app : forall a b, slash_free (append a b) -> slash_free b.
Proof. induction a as [|c a IH]; intros b H; [exact H|]. destruct H as [_ H]. apply IH, H. Qed.
Lemma join_inj : forall d n d' n', slash_free n -> slash_free n' -> join d n = join d' n' -> d = d' /\ n = n'.
Proof.
  unfold join. intros d n d' n' S S'. revert d'. induction d as [|c d IH]; intros d' E.
  - destruct d' as [|c' d']; [injection E as E; auto|]. cbn in E. injection E as <- E. rewrite E in S. apply slash_free_app in S. destruct S as [C _]. contradiction.
  - destruct d' as [|c' d'].
    + cbn in E. injection E as -> E. rewrite <- E in S'. apply slash_free_app in S'. destruct S' as [C _]. contradiction.
    + cbn in E. injection E as -> E. destruct (IH d' E) as [-> ->]. auto.
Qed.
Lemma there_posix : forall h d n r, posix h -> there h d n r -> slash_free n.
Proof. intros h d n r P (h1 & h2 & -> & _). apply (P d n r), in_or_app. right; left; reflexivity. Qed.
Lemma exists_there : forall h d n, posix h -> slash_free n -> path_exists (fst (world h)) (join d n) = true <-> there h d n true.
Proof.
  intros h d n P S. unfold path_exists. rewrite existsb_exists. split.
  - intros ([[d' n'] r] & I & E). cbn [fst snd] in E. apply andb_true_iff in E. destruct E as [E ->]. apply String.eqb_eq in E. pose proof (proj1 (fs_there h d' n' true) I) as T.
    destruct (join_inj d n d' n' S (there_posix h d' n' true P T) E) as [-> ->]. exact T.
  - intros T. exists (d, n, true). split; [apply fs_there, T|]. cbn [fst snd]. rewrite String.eqb_refl. reflexivity.
Qed.
Lemma snap_assoc : forall s d pat n p, assoc n (snapshot s d pat) = Some p <-> p = join d n /\ pat n = true /\ exists r, In (d, n, r) s.
Proof.
  intros s d pat n p. unfold snapshot, glob. induction s as [|[[d' n'] r'] s IH]; [split; [discriminate|intros (_ & _ & r & [])]|].
  cbn [filter map fst snd]. destruct (String.eqb d d' && pat n') eqn:Q.
  - cbn [map fst snd assoc]. apply andb_true_iff in Q. destruct Q as [Q1 Q2]. apply String.eqb_eq in Q1. subst d'. destruct (String.eqb n n') eqn:E.
    + apply String.eqb_eq in E. subst n'. split; [intros H; injection H as <-; split; [reflexivity|]; split; [exact Q2|exists r'; left; reflexivity]|intros (-> & _); reflexivity].
    + rewrite IH. apply String.eqb_neq in E. split; intros (A & B & r & C); (split; [exact A|split; [exact B|exists r]]); [right; exact C|]. destruct C as [C|C]; [congruence|exact C].
  - rewrite IH. split; intros (A & B & r & C); (split; [exact A|split; [exact B|exists r]]); [right; exact C|]. destruct C as [C|C]; [|exact C].
    injection C as -> -> ->. rewrite String.eqb_refl, B in Q. discriminate.
Qed.
Lemma ends_with_spec : forall suf s, ends_with suf s = true <-> exists p, s = append p suf.
Proof.
  intros suf s. split.
  - induction s as [|c s IH]; cbn [ends_with]; intros H; apply orb_true_iff in H; destruct H as [H|H].
    + apply String.eqb_eq in H. exists EmptyString. exact H.
    + discriminate.
    + apply String.eqb_eq in H. exists EmptyString. exact H.
    + destruct (IH H) as (p & ->). exists (String c p). reflexivity.
  - intros (p & ->). induction p as [|c p IH]; [destruct suf; cbn [append ends_with]; rewrite String.eqb_refl; reflexivity|]. cbn [append ends_with]. rewrite IH. apply orb_true_r.
Qed.
Lemma resource_spec : forall s d pat ex n p, resource (snapshot s d pat) ex n = Ok p <-> p = join d n /\ pat n = true /\ (exists r, In (d, n, r) s) /\ ex (join d n) = true.
Proof.
  intros s d pat ex n p. unfold resource. destruct (assoc n (snapshot s d pat)) as [q|] eqn:A.
  - apply snap_assoc in A. destruct A as (-> & B & C). destruct (ex (join d n)) eqn:X; split; [intros H; injection H as <-; auto|intros (-> & _); reflexivity|discriminate|intros (_ & _ & _ & D); discriminate].
  - split; [discriminate|]. intros (-> & B & C & _). assert (assoc n (snapshot s d pat) = Some (join d n)) by (apply snap_assoc; auto). congruence.
Qed.
Lemma resource_raise : forall {P} (l : list (string * P)) ex n e, resource l ex n = Raise e -> e = FileNotFoundError.
Proof. intros P l ex n e. unfold resource. destruct (assoc n l) as [q|]; [destruct (ex q)|]; intros H; congruence. Qed.

(** ** the claims *)
(** the answer depends on the entries there were when the module was first imported and on those there are now *)
Theorem C87_fixture : forall before after n, never_imported before -> posix (before ++ OImport :: after) ->
  exists a, answer (before ++ OImport :: after) (OFixture n) = [a] /\
    (forall p, a = Ok p <-> p = join data_dir n /\ (exists r, there before data_dir n r) /\ there (before ++ OImport :: after) data_dir n true) /\
    (forall e, a = Raise e -> e = FileNotFoundError).
Proof.
  intros h1 h2 n N P. unfold ResModel.answer. change (fst (play ([], None) (h1 ++ OImport :: h2))) with (world (h1 ++ OImport :: h2)). pose proof (mods_after h1 h2 N) as M. pose proof (exists_there (h1 ++ OImport :: h2) data_dir n P) as X.
  destruct (world (h1 ++ OImport :: h2)) as [s m]. cbn [fst snd] in *. subst m. cbn [ResModel.step snd ask resource_of_kind String.eqb Ascii.eqb Bool.eqb m_fixture].
  eexists. split; [reflexivity|]. split; [|intros e; apply resource_raise]. intros p. rewrite resource_spec.
  assert (T : (exists r, In (data_dir, n, r) (fst (world h1))) <-> exists r, there h1 data_dir n r) by (split; intros (r & H); exists r; apply fs_there, H).
  rewrite T. split.
  - intros (-> & _ & C & D). split; [reflexivity|]. split; [exact C|]. apply X; [|exact D]. destruct C as (r & C). apply (there_posix h1 data_dir n r); [|exact C]. intros d' n' r' I. apply (P d' n' r'), in_or_app. left; exact I.
  - intros (-> & C & D). split; [reflexivity|]. split; [reflexivity|]. split; [exact C|]. apply X; [|exact D]. apply (there_posix _ _ _ _ P D).
Qed.
Theorem C87_notebook : forall before after n, never_imported before -> posix (before ++ OImport :: after) ->
  exists a, answer (before ++ OImport :: after) (ONotebook n) = [a] /\
    (forall p, a = Ok p <-> p = join notebook_dir n /\ (exists base, n = append base ".ipynb") /\ (exists r, there before notebook_dir n r) /\ there (before ++ OImport :: after) notebook_dir n true) /\
    (forall e, a = Raise e -> e = FileNotFoundError).
Proof.
  intros h1 h2 n N P. unfold ResModel.answer. change (fst (play ([], None) (h1 ++ OImport :: h2))) with (world (h1 ++ OImport :: h2)). pose proof (mods_after h1 h2 N) as M. pose proof (exists_there (h1 ++ OImport :: h2) notebook_dir n P) as X.
  destruct (world (h1 ++ OImport :: h2)) as [s m]. cbn [fst snd] in *. subst m. cbn [ResModel.step snd ask]. unfold resource_of_kind. change (String.eqb "notebook" "fixture") with false. change (String.eqb "notebook" "notebook") with true. cbn [m_notebook].
  eexists. split; [reflexivity|]. split; [|intros e; apply resource_raise]. intros p. rewrite resource_spec, ends_with_spec.
  assert (T : (exists r, In (notebook_dir, n, r) (fst (world h1))) <-> exists r, there h1 notebook_dir n r) by (split; intros (r & H); exists r; apply fs_there, H).
  rewrite T. split.
  - intros (-> & B & C & D). split; [reflexivity|]. split; [exact B|]. split; [exact C|]. apply X; [|exact D]. destruct C as (r & C). apply (there_posix h1 notebook_dir n r); [|exact C]. intros d' n' r' I. apply (P d' n' r'), in_or_app. left; exact I.
  - intros (-> & B & C & D). split; [reflexivity|]. split; [exact B|]. split; [exact C|]. apply X; [|exact D]. apply (there_posix _ _ _ _ P D).
Qed.
(** no request escapes the directory: a name with a slash is never found, whatever exists *)
Theorem C87_no_traversal : forall before after n, never_imported before -> posix (before ++ OImport :: after) -> ~ slash_free n ->
  answer (before ++ OImport :: after) (OFixture n) = [Raise FileNotFoundError] /\ answer (before ++ OImport :: after) (ONotebook n) = [Raise FileNotFoundError].
Proof.
  intros h1 h2 n N P S. destruct (C87_fixture h1 h2 n N P) as (a & -> & A & A'). destruct (C87_notebook h1 h2 n N P) as (b & -> & B & B'). split.
  - destruct a as [p|e]; [exfalso|rewrite (A' e eq_refl); reflexivity]. destruct (proj1 (A p) eq_refl) as (_ & _ & T). apply S, (there_posix _ _ _ _ P T).
  - destruct b as [p|e]; [exfalso|rewrite (B' e eq_refl); reflexivity]. destruct (proj1 (B p) eq_refl) as (_ & _ & _ & T). apply S, (there_posix _ _ _ _ P T).
Qed.
(** any other kind of resource *)
Theorem C87_other_kind : forall before after k n, never_imported before -> k <> "fixture"%string -> k <> "notebook"%string -> answer (before ++ OImport :: after) (OOther k n) = [Raise KeyError].
Proof.
  intros h1 h2 k n N F B. unfold ResModel.answer. change (fst (play ([], None) (h1 ++ OImport :: h2))) with (world (h1 ++ OImport :: h2)). pose proof (mods_after h1 h2 N) as M. destruct (world (h1 ++ OImport :: h2)) as [s m]. cbn [fst snd] in *. subst m.
  cbn [ResModel.step snd ask]. unfold resource_of_kind. rewrite (proj2 (String.eqb_neq _ _) F), (proj2 (String.eqb_neq _ _) B). reflexivity.
Qed.
(** asking changes nothing: questions can be dropped from the history *)
Theorem C87_asking_is_pure : forall h q, (match q with OFixture _ | ONotebook _ | OOther _ _ => True | _ => False end) -> world (h ++ [q]) = world h.
Proof. intros h q Q. rewrite world_snoc. destruct (world h) as [s m]. destruct q; cbn in Q |- *; (reflexivity || contradiction). Qed.
(** importing a second time does not refresh the listing *)
Theorem C87_reimport : forall h1 h2, never_imported h1 -> world (h1 ++ OImport :: h2 ++ [OImport]) = world (h1 ++ OImport :: h2).
Proof.
  intros h1 h2 N. replace (h1 ++ OImport :: h2 ++ [OImport]) with ((h1 ++ OImport :: h2) ++ [OImport]) by (rewrite <- app_assoc; reflexivity). rewrite world_snoc.
  pose proof (mods_after h1 h2 N) as M. destruct (world (h1 ++ OImport :: h2)) as [s m]. cbn [fst snd] in *. subst m. reflexivity.
Qed.
End Dirs.

(** a file that exists but was added after the import is not found: the documented "raises FileNotFoundError if it cannot be found" is about the import-time listing *)
Theorem C87_added_later_refuted : exists before after, never_imported before /\ posix (before ++ OImport :: after) /\
  there (before ++ OImport :: after) "/p/data" "b.csv" true /\ answer "/p/data" "/p/notebooks" (before ++ OImport :: after) (OFixture "b.csv") = [Raise FileNotFoundError] /\
  answer "/p/data" "/p/notebooks" (before ++ OImport :: after) (OFixture "a.csv") = [Ok "/p/data/a.csv"%string].
Proof.
  exists [OCreate "/p/data" "a.csv" true], [OCreate "/p/data" "b.csv" true]. split; [intros [H|[]]; discriminate|]. split; [|split; [|split; vm_compute; reflexivity]].
  - intros d n r [H|[H|[H|[]]]]; try discriminate H; injection H as <- <- <-; cbn; repeat split; discriminate.
  - exists [OCreate "/p/data" "a.csv" true; OImport], []. split; [reflexivity|intros o []].
Qed.
(** removed, replaced by a broken link, and back again *)
Example C87_comes_and_goes : let h0 := [OCreate "/p/notebooks" "t.ipynb" true; OCreate "/p/notebooks" "readme.txt" true; OImport] in let q := ONotebook "t.ipynb" in
  map (fun h => answer "/p/data" "/p/notebooks" (h0 ++ h) q) [[]; [ORemove "/p/notebooks" "t.ipynb"]; [ORemove "/p/notebooks" "t.ipynb"; OCreate "/p/notebooks" "t.ipynb" false];
     [ORemove "/p/notebooks" "t.ipynb"; OCreate "/p/notebooks" "t.ipynb" true]]
  = [[Ok "/p/notebooks/t.ipynb"%string]; [Raise FileNotFoundError]; [Raise FileNotFoundError]; [Ok "/p/notebooks/t.ipynb"%string]]
  /\ answer "/p/data" "/p/notebooks" h0 (ONotebook "readme.txt") = [Raise FileNotFoundError].
Proof. split; vm_compute; reflexivity. Qed.
Print Assumptions C87_fixture.
Print Assumptions C87_notebook.
