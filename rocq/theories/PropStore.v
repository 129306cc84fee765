(** C95: every download has a file of its own, and the viewer offers it under its name. *)
From Coq Require Import Bool List Arith NArith Lia String Ascii Permutation Sorted.
From Verif Require Import F64 Kurbo Value Animated Download Scenes Store PropDownload PropScenes Examples.
Import ListNotations.
Close Scope string_scope.
Open Scope list_scope.
Open Scope nat_scope.

(** ** Specification *)
(** Directories are given without a slash at the end. *)
Definition tidy_dir (d : string) : Prop := exists a c, d = append a (String c "") /\ c <> "/"%char.
(** The file [n].json of a directory. *)
Definition json_in (d n : string) : string := append d (String "/" (append n ".json")).

(** ** Paths *)
Lemma app_assoc_s a b c : append (append a b) c = append a (append b c).
Proof. induction a as [|x a IH]; [reflexivity|]. cbn. now rewrite IH. Qed.
Lemma tidy_slash d : tidy_dir d -> ends_in_slash d = false.
Proof.
  intros (a & c & -> & N). induction a as [|x a IH]; cbn; [now destruct (Ascii.eqb_spec c "/")|]. destruct (append a (String c "")) eqn:E; [|exact IH].
  exfalso. destruct a; discriminate E.
Qed.
Lemma join_plain d n : tidy_dir d -> no "/" n -> path_join d n = append d (String "/" n).
Proof.
  intros T N. unfold path_join. rewrite (tidy_slash d T). destruct n as [|c n]; [reflexivity|]. cbn [absolute]. destruct N as [N _]. now destruct (Ascii.eqb_spec c "/").
Qed.
Lemma list_app a b : list_ascii_of_string (append a b) = list_ascii_of_string a ++ list_ascii_of_string b.
Proof. induction a as [|x a IH]; [reflexivity|]. cbn. now rewrite IH. Qed.
Lemma no_list c s : no c s -> ~ In c (list_ascii_of_string s).
Proof. induction s as [|x s IH]; [intros _ []|]. cbn. intros [N H] [<-|I]; [now apply N|now apply IH]. Qed.
Lemma trimmed_plain d n : plain n -> trimmed (append d (String "/" n)) = append d (String "/" n).
Proof.
  intros (Ns & Ne & Nd & _). unfold trimmed. rewrite list_app. cbn [list_ascii_of_string]. rewrite rev_app_distr. cbn [rev].
  assert (L : list_ascii_of_string n <> []) by (destruct n; [now destruct Ne|discriminate]).
  pose proof (no_list _ _ Ns) as NI.
  assert (S : strip ((rev (list_ascii_of_string n) ++ ["/"%char]) ++ rev (list_ascii_of_string d)) = (rev (list_ascii_of_string n) ++ ["/"%char]) ++ rev (list_ascii_of_string d)).
  { destruct (rev (list_ascii_of_string n)) as [|c l] eqn:Er.
    - exfalso. apply L. rewrite <- (rev_involutive (list_ascii_of_string n)), Er. reflexivity.
    - assert (Ic : ~ In "/"%char (c :: l)) by (rewrite <- Er, <- in_rev; exact NI). cbn [app strip]. destruct (Ascii.eqb_spec c "/") as [->|_]; [elim Ic; now left|].
      destruct l as [|c' l]; cbn [app].
      + destruct (Ascii.eqb_spec c ".") as [->|_]; [|reflexivity]. exfalso. apply Nd. rewrite <- (string_of_list_ascii_of_string n), <- (rev_involutive (list_ascii_of_string n)), Er. reflexivity.
      + destruct (Ascii.eqb_spec c' "/") as [->|_]; [elim Ic; right; now left|]. now rewrite andb_false_r. }
  rewrite S, !rev_app_distr, !rev_involutive. cbn [rev app]. change ("/"%char :: list_ascii_of_string n) with (list_ascii_of_string (String "/" n)). rewrite <- list_app. apply string_of_list_ascii_of_string.
Qed.
Lemma stem_of n : plain n -> exists s, stem n s /\ match split_dot n with (Some b, _) => b | (None, Some a) => a | (None, None) => n end = s.
Proof.
  intros Pl. destruct (file_stem n) as [s|] eqn:F.
  - exists s. split; [now apply (file_stem_of n n s Pl (or_introl eq_refl))|]. unfold file_stem in F. rewrite (file_name_of n n Pl (or_introl eq_refl)) in F.
    destruct (split_dot n) as [[b|] [a|]]; congruence.
  - exfalso. unfold file_stem in F. rewrite (file_name_of n n Pl (or_introl eq_refl)) in F. destruct (last_dot n) as [H|(a & e & H & Eq)].
    + rewrite (split_dot_no n Pl H) in F. discriminate.
    + rewrite (split_dot_at n a e Pl H Eq) in F. destruct (String.eqb a ""); discriminate.
Qed.
Lemma cut_name a n : substring 0 (String.length (append a n) - String.length n) (append a n) = a.
Proof. rewrite append_length. replace (String.length a + String.length n - String.length n) with (String.length a) by lia. apply substring_prefix. Qed.
Lemma path_plain d n s : tidy_dir d -> plain n -> stem n s -> file_path d n = json_in d s.
Proof.
  intros T Pl St. unfold file_path. rewrite (join_plain d n T) by apply Pl. unfold with_extension. rewrite (file_name_of _ n Pl) by (right; eauto).
  rewrite (trimmed_plain d n Pl). destruct (stem_of n Pl) as (s' & St' & ->). rewrite (stem_unique n s' s Pl St' St).
  replace (append d (String "/" n)) with (append (append d "/") n) by (rewrite app_assoc_s; reflexivity). rewrite cut_name, app_assoc_s. reflexivity.
Qed.
Lemma json_in_inj d a b : json_in d a = json_in d b -> a = b.
Proof.
  unfold json_in. intros H.
  assert (X : forall x y z, append x y = append x z -> y = z) by (induction x as [|c x IH]; cbn; intros y z; [auto|intros [= E]; auto]). apply X in H. injection H as H. clear X.
  revert b H. induction a as [|x a IH]; intros b H.
  - destruct b as [|y b]; [reflexivity|]. cbn in H. exfalso. apply (f_equal String.length) in H. cbn [String.length] in H. rewrite append_length in H. cbn in H. lia.
  - destruct b as [|y b]; cbn in H; [exfalso; apply (f_equal String.length) in H; cbn [String.length] in H; rewrite append_length in H; cbn in H; lia|].
    injection H as -> H. f_equal. now apply IH.
Qed.

(** ** C95 *)
(** Exactly: what counts of a name is what is in front of its last dot, unless
    that dot is at the start. *)
Theorem C95_exact : forall d n s, tidy_dir d -> plain n -> stem n s ->
  file_path d n = json_in d s /\ file_stem (file_path d n) = Some s /\
  (file_path d n = json_in d n <-> s = n) /\
  forall n' s', plain n' -> stem n' s' -> (file_path d n = file_path d n' <-> s = s').
Proof.
  intros d n s T Pl St. pose proof (path_plain d n s T Pl St) as P. split; [exact P|].
  assert (Ns : s <> ""%string) by (destruct St as [(e & _ & N & _)|(-> & _)]; [exact N|apply Pl]).
  assert (Ps : plain (append s ".json")).
  { assert (Nn : no "/" s) by (destruct Pl as (N & _); destruct St as [(e & _ & _ & ->)|(-> & _)]; [now apply no_app in N|exact N]).
    split; [apply no_app; split; [exact Nn|cbn; repeat split; discriminate]|]. repeat split; intros H; apply (f_equal String.length) in H; rewrite append_length in H; cbn in H; lia. }
  split.
  { rewrite P. apply (file_stem_of _ (append s ".json") s Ps); [right; exists d; reflexivity|]. apply json_stem. split; [exact Ns|reflexivity]. }
  split.
  - rewrite P. split; [apply json_in_inj|intros ->; reflexivity].
  - intros n' s' Pl' St'. rewrite P, (path_plain d n' s' T Pl' St'). split; [apply json_in_inj|intros ->; reflexivity].
Qed.
(** Names without dots: as stated. *)
Lemma plain_no_dot n : no "/" n -> no "." n -> n <> ""%string -> plain n /\ stem n n.
Proof.
  intros Ns Nd Ne. split; [|right; auto]. repeat split; auto; intros ->; cbn in Nd; destruct Nd as [N _]; now apply N.
Qed.
Theorem C95_own_file_partial : forall d n, tidy_dir d -> no "/" n -> no "." n -> n <> ""%string ->
  file_path d n = json_in d n /\ file_stem (file_path d n) = Some n /\
  forall n', no "/" n' -> no "." n' -> n' <> ""%string -> file_path d n = file_path d n' -> n = n'.
Proof.
  intros d n T Ns Nd Ne. destruct (plain_no_dot n Ns Nd Ne) as [Pl St]. destruct (C95_exact d n n T Pl St) as (P & F & _ & D). split; [exact P|]. split; [exact F|].
  intros n' Ns' Nd' Ne' H. destruct (plain_no_dot n' Ns' Nd' Ne') as [Pl' St']. now apply (D n' n' Pl' St').
Qed.
(** The name of an address without a name never has a slash. *)
Lemma rfind_slash_none s : rfind "/" s = None -> no "/" s.
Proof.
  induction s as [|x s IH]; [intros _; exact I|]. cbn [rfind]. destruct (rfind "/" s) eqn:R; [discriminate|]. cbn [prefix].
  destruct (ascii_dec "/" x) as [<-|N]; [destruct s; discriminate|]. intros _. split; [intros H; apply N; now symmetry|]. now apply IH.
Qed.
Lemma rfind_slash_some s i : rfind "/" s = Some i -> no "/" (from_ (i + 1) s).
Proof.
  revert i. induction s as [|x s IH]; [intros i H; discriminate H|]. intros i. cbn [rfind]. destruct (rfind "/" s) as [j|] eqn:R.
  - intros [= <-]. specialize (IH j eq_refl). unfold from_ in *. cbn [String.length]. replace (S j + 1) with (S (j + 1)) by lia. cbn [substring]. replace (S (String.length s) - S (j + 1)) with (String.length s - (j + 1)) by lia. exact IH.
  - cbn [prefix]. destruct (ascii_dec "/" x) as [<-|N]; [|discriminate]. replace (prefix "" s) with true by now destruct s.
    intros [= <-]. unfold from_. cbn [String.length Nat.add substring]. replace (S (String.length s) - 1) with (String.length s) by lia.
    replace (substring 0 (String.length s) s) with s; [now apply rfind_slash_none|]. clear. induction s as [|x s IH]; [reflexivity|]. cbn. now rewrite <- IH.
Qed.
Theorem C95_address : forall value, no "@" value -> no "/" (dl_name (parse_download value)).
Proof.
  intros value N. unfold parse_download. rewrite (find_none _ _ N). cbn [dl_name]. destruct (rfind "/" _) as [v|] eqn:R; [now apply rfind_slash_some|now apply rfind_slash_none].
Qed.

(** ** The default downloads *)
Fixpoint nob (c : ascii) (s : string) : bool := match s with EmptyString => true | String x s => negb (Ascii.eqb x c) && nob c s end.
Lemma nob_no c s : nob c s = true -> no c s.
Proof.
  induction s as [|x s IH]; [intros _; exact I|]. cbn. intros H. apply andb_true_iff in H as [N H]. split; [|now apply IH]. intros ->. rewrite Ascii.eqb_refl in N. discriminate.
Qed.
Fixpoint distinct (l : list string) : bool := match l with [] => true | x :: l => negb (existsb (String.eqb x) l) && distinct l end.
Lemma distinct_nodup l : distinct l = true -> NoDup l.
Proof.
  induction l as [|x l IH]; [constructor|]. cbn. intros H. apply andb_true_iff in H as [N H]. constructor; [|now apply IH]. intros I. apply negb_true_iff in N.
  assert (existsb (String.eqb x) l = true) by (apply existsb_exists; exists x; split; [exact I|apply String.eqb_refl]). congruence.
Qed.
Lemma default_names : map dl_name default_downloads = map (fun e => fst (fst e)) noto_assets.
Proof. unfold default_downloads. rewrite map_map. apply map_ext. intros [[n i] s]. reflexivity. Qed.
Lemma default_urls : map dl_url default_downloads = map (fun e => append "https://fonts.gstatic.com/s/e/notoemoji/latest/" (append (snd (fst e)) "/lottie.json")) noto_assets.
Proof. unfold default_downloads. rewrite map_map. apply map_ext. intros [[n i] s]. reflexivity. Qed.
(** 344 names without slashes and dots, all different, even if the case of the
    letters does not count, and as many addresses. *)
Definition small (c : ascii) : ascii := let n := N_of_ascii c in if (65 <=? n)%N && (n <=? 90)%N then ascii_of_N (n + 32) else c.
Fixpoint ascii_lower (s : string) : string := match s with EmptyString => EmptyString | String c s => String (small c) (ascii_lower s) end.
Theorem C95_default_names : List.length default_downloads = 344 /\
  (forall d, In d default_downloads -> no "/" (dl_name d) /\ no "." (dl_name d) /\ dl_name d <> ""%string) /\
  NoDup (map dl_name default_downloads) /\ NoDup (map (fun d => ascii_lower (dl_name d)) default_downloads) /\ NoDup (map dl_url default_downloads).
Proof.
  split; [unfold default_downloads; rewrite map_length; vm_compute; reflexivity|]. split; [|split; [|split]].
  - intros d Hd. apply (in_map dl_name) in Hd. rewrite default_names in Hd.
    assert (A : forallb (fun n => nob "/" n && nob "." n && negb (String.eqb n "")) (map (fun e => fst (fst e)) noto_assets) = true) by (vm_compute; reflexivity).
    rewrite forallb_forall in A. specialize (A _ Hd). apply andb_true_iff in A as [A Ne]. apply andb_true_iff in A as [A B]. split; [now apply nob_no|]. split; [now apply nob_no|].
    intros H. rewrite H in Ne. discriminate.
  - rewrite default_names. apply distinct_nodup. vm_compute. reflexivity.
  - rewrite <- map_map, default_names. apply distinct_nodup. vm_compute. reflexivity.
  - rewrite default_urls. apply distinct_nodup. vm_compute. reflexivity.
Qed.
(** Files of different defaults are different. *)
Lemma default_paths d : tidy_dir d -> NoDup (map (fun x => file_path d (dl_name x)) default_downloads).
Proof.
  intros T. destruct C95_default_names as (_ & Pl & ND & _). assert (X : forall x, In x default_downloads -> file_path d (dl_name x) = json_in d (dl_name x)).
  { intros x Hx. destruct (Pl x Hx) as (A & B & C). now apply C95_own_file_partial. }
  rewrite (map_ext_in _ _ _ X). rewrite <- (map_map dl_name (json_in d)). apply FinFun.Injective_map_NoDup; [intros a b; apply json_in_inj|exact ND].
Qed.
(** Downloaded without questions into a directory that has none of them, from a
    server that has the files, the 344 default downloads are in 344 files, and
    the viewer that is given the directory offers them under their names, in
    alphabetical order. *)
Theorem C95_shown : forall dir writable sv limit accept go (before : files) ns fs load lower, tidy_dir dir -> (exists n, plain n /\ ends_in dir n) -> lists_names fs ->
  (forall x, In x default_downloads -> before (json_in dir (dl_name x)) = None /\ writable (json_in dir (dl_name x)) = true /\ exists c, serves sv limit x c) ->
  let o := action (file_path dir) writable sv default_downloads (mkCommand None true limit) accept go before in
  Permutation ns (map (fun x => append (dl_name x) ".json") default_downloads) -> fs dir = Dir (Some (map Some ns)) ->
  (forall x c, In x default_downloads -> serves sv limit x c -> oc_files o (json_in dir (dl_name x)) = Some c -> exists k, load (json_in dir (dl_name x)) = Some k) ->
  oc_ok o = true /\ oc_done o = 344 /\ oc_failed o = 0 /\
  (forall x, In x default_downloads -> exists c, serves sv limit x c /\ oc_files o (json_in dir (dl_name x)) = Some c) /\
  exists l, scene_from_files fs load lower [dir] = Ok (Some l) /\ Permutation (map sc_name l) (map dl_name default_downloads) /\
    StronglySorted (fun a b => String.leb (lower (sc_name a)) (lower (sc_name b)) = true) l /\
    forall s, In s l -> load (json_in dir (sc_name s)) = Some (sc_composition s).
Proof.
  intros dir writable sv limit accept go before ns fs load lower T Pd Ln Sv o Pn Fd Ld. destruct C95_default_names as (Len & Pl & ND & _).
  assert (X : forall x, In x default_downloads -> file_path dir (dl_name x) = json_in dir (dl_name x)).
  { intros x Hx. destruct (Pl x Hx) as (A & B & C). now apply C95_own_file_partial. }
  destruct (C76_defaults (file_path dir) writable sv default_downloads (mkCommand None true limit) accept go before eq_refl eq_refl (default_paths dir T)) as (Ok1 & Fl & Dn & Fi & _).
  { intros x Hx _. rewrite X by exact Hx. destruct (Sv x Hx) as (_ & W & S). auto. }
  fold o in Ok1, Fl, Dn, Fi. split; [exact Ok1|].
  assert (All : filter (fun x => match before (file_path dir (dl_name x)) with Some _ => false | None => true end) default_downloads = default_downloads).
  { assert (G : forall l, (forall x, In x l -> before (file_path dir (dl_name x)) = None) -> filter (fun x => match before (file_path dir (dl_name x)) with Some _ => false | None => true end) l = l).
    { induction l as [|x l IH]; [reflexivity|]. intros H. cbn [filter]. rewrite (H x (or_introl eq_refl)). f_equal. apply IH. intros y Hy. apply H. now right. }
    apply G. intros x Hx. rewrite X by exact Hx. apply Sv, Hx. }
  rewrite All, Len in Dn. split; [exact Dn|]. split; [exact Fl|].
  assert (Files : forall x, In x default_downloads -> exists c, serves sv limit x c /\ oc_files o (json_in dir (dl_name x)) = Some c).
  { intros x Hx. destruct (Fi x Hx) as (c & Fc & H). rewrite X in Fc, H by exact Hx. exists c. destruct H as [H|[_ H]]; [rewrite (proj1 (Sv x Hx)) in H; discriminate|]. split; [exact H|exact Fc]. }
  split; [exact Files|].
  assert (Load : forall x, In x default_downloads -> exists k, load (json_in dir (dl_name x)) = Some k).
  { intros x Hx. destruct (Files x Hx) as (c & S & F). eauto. }
  assert (Tk : forall ms, (forall n, In n ms -> exists x, In x default_downloads /\ n = append (dl_name x) ".json") -> exists raw, taken load dir ms raw /\ map (fun s => append (sc_name s) ".json") raw = ms /\
    forall s, In s raw -> load (json_in dir (sc_name s)) = Some (sc_composition s)).
  { induction ms as [|n ms IH]; intros H; [exists []; split; [constructor|split; [reflexivity|intros s []]]|].
    destruct (H n (or_introl eq_refl)) as (x & Hx & ->). destruct (Load x Hx) as (k & Lk). destruct (IH (fun m Hm => H m (or_intror Hm))) as (raw & Tr & Er & Lr).
    exists (mkScene (dl_name x) k :: raw). split; [|split].
    - apply tk_take; [split; [apply Pl, Hx|reflexivity]|exact Lk|exact Tr].
    - cbn [map sc_name]. now rewrite Er.
    - intros s [<-|Hs]; [exact Lk|now apply Lr]. }
  destruct (Tk ns) as (raw & Tr & Er & Lr).
  { intros n Hn. apply (Permutation_in _ Pn) in Hn. apply in_map_iff in Hn as (x & <- & Hx). eauto. }
  exists (sort_scenes lower raw). pose proof (sort_arranged lower raw) as Ar.
  assert (Of : offers fs load lower [dir] (sort_scenes lower raw)).
  { rewrite <- (app_nil_r (sort_scenes lower raw)). eapply of_dir; [exact Fd|exact Tr|exact Ar|constructor]. }
  split; [apply C90_exact; [exact Ln|intros p [<-|[]]; exact Pd|exact Of]|].
  split; [|split].
  - assert (P : Permutation (map (fun s => append (sc_name s) ".json") (sort_scenes lower raw)) (map (fun x => append (dl_name x) ".json") default_downloads)).
    { eapply perm_trans; [apply Permutation_map, Permutation_sym, (ar_same _ _ _ Ar)|]. rewrite Er. exact Pn. }
    rewrite <- (map_map sc_name (fun n => append n ".json")), <- (map_map dl_name (fun n => append n ".json")) in P.
    apply Permutation_map_inv in P as (l3 & E3 & P3). apply Permutation_sym. eapply perm_trans; [exact P3|].
    replace l3 with (map sc_name (sort_scenes lower raw)); [reflexivity|]. clear - E3. revert l3 E3. induction (map sc_name (sort_scenes lower raw)) as [|a l IH]; intros [|b l3]; try discriminate; [reflexivity|].
    cbn [map]. intros H. assert (H1 : append a ".json" = append b ".json") by congruence. assert (H2 : map (fun n => append n ".json") l = map (fun n => append n ".json") l3) by congruence.
    f_equal; [|now apply IH]. apply (json_in_inj ""). unfold json_in. cbn. now rewrite H1.
  - apply Ar.
  - intros s Hs. apply Lr. eapply Permutation_in; [apply Permutation_sym, (ar_same _ _ _ Ar)|exact Hs].
Qed.
(** The default download: the directory next to the program. *)
Example C95_applies : tidy_dir "downloads" /\ (exists n, plain n /\ ends_in "downloads" n) /\
  file_path "downloads" "Waving" = "downloads/Waving.json"%string /\ In "Paw Prints"%string (map dl_name default_downloads).
Proof.
  split; [exists "download"%string, "s"%char; split; [reflexivity|discriminate]|]. split; [exists "downloads"%string; split; [cbn; repeat split; discriminate|now left]|].
  split; [reflexivity|]. rewrite default_names. assert (X : existsb (String.eqb "Paw Prints") (map (fun e => fst (fst e)) noto_assets) = true) by (vm_compute; reflexivity).
  apply existsb_exists in X as (x & Hx & E). apply String.eqb_eq in E. now subst.
Qed.
(** Not for all names: of two names that differ after a dot only, the file is the
    same, and the viewer offers it without the dot; the name of an address with a
    slash at the end is empty, and its file is outside the directory. *)
Theorem C95_refuted : plain "v1.2" /\ plain "v1.3" /\
  file_path "downloads" "v1.2" = "downloads/v1.json"%string /\ file_path "downloads" "v1.3" = "downloads/v1.json"%string /\
  dl_name (parse_download "https://example.com/lottie/") = ""%string /\ file_path "downloads" "" = "downloads.json"%string.
Proof. repeat split; try discriminate; reflexivity. Qed.
