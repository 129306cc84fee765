(** C90: which scenes the viewer offers, and in which order. *)
From Coq Require Import Bool List Arith NArith Lia String Ascii Permutation Sorted.
From Verif Require Import F64 Kurbo Value Animated Download Scenes PropDownload Examples.
Import ListNotations.
Close Scope string_scope.
Open Scope list_scope.
Open Scope nat_scope.

(** ** Specification *)
(** Names of files, as directories list them; the last part of a path. *)
Definition plain (n : string) : Prop := no "/" n /\ n <> ""%string /\ n <> "."%string /\ n <> ".."%string.
Definition ends_in (p n : string) : Prop := p = n \/ exists d, p = append d (String "/" n).
(** [n] is [s] with the ending ".json". *)
Definition json_name (n s : string) : Prop := s <> ""%string /\ n = append s ".json".
(** A name without its ending: what is before the last dot, if that is not at the start. *)
Definition stem (n s : string) : Prop :=
  (exists e, no "." e /\ s <> ""%string /\ n = append s (String "." e)) \/
  (s = n /\ (no "." n \/ exists e, no "." e /\ n = String "." e)).
(** The scenes of the json files among the entries. *)
Inductive taken (load : string -> option composition) (p : string) : list string -> list scene -> Prop :=
| tk_nil : taken load p [] []
| tk_skip : forall n ns l, (forall s, ~ json_name n s) -> taken load p ns l -> taken load p (n :: ns) l
| tk_take : forall n s c ns l, json_name n s -> load (append p (String "/" n)) = Some c -> taken load p ns l -> taken load p (n :: ns) (mkScene s c :: l).
(** In the order of the lower-case names, those with the same in the order they came. *)
Record arranged (lower : string -> string) (raw l : list scene) : Prop := {
  ar_same : Permutation raw l;
  ar_order : StronglySorted (fun a b => String.leb (lower (sc_name a)) (lower (sc_name b)) = true) l;
  ar_stable : forall k, filter (fun s => String.eqb (lower (sc_name s)) k) l = filter (fun s => String.eqb (lower (sc_name s)) k) raw }.
(** What is offered for some paths. *)
Inductive offers (fs : string -> node) (load : string -> option composition) (lower : string -> string) : list string -> list scene -> Prop :=
| of_nil : offers fs load lower [] []
| of_file : forall p n s c ps l, fs p = NotDir -> plain n -> ends_in p n -> stem n s -> load p = Some c ->
    offers fs load lower ps l -> offers fs load lower (p :: ps) (mkScene s c :: l)
| of_dir : forall p ns raw b ps l, fs p = Dir (Some (map Some ns)) -> taken load p ns raw -> arranged lower raw b ->
    offers fs load lower ps l -> offers fs load lower (p :: ps) (b ++ l).
(** Directories list names of files. *)
Definition lists_names (fs : string -> node) : Prop := forall p es n, fs p = Dir (Some es) -> In (Some n) es -> plain n.

(** ** Names *)
Lemma split_no c s : no c s -> split c s = [s].
Proof. induction s as [|x s IH]; [reflexivity|]. cbn. intros [N H]. destruct (Ascii.eqb_spec x c); [contradiction|]. now rewrite IH. Qed.
Lemma split_nonempty c s : split c s <> [].
Proof. destruct s as [|x s]; [discriminate|]. cbn. destruct (Ascii.eqb x c); [discriminate|]. destruct (split c s); discriminate. Qed.
Lemma split_app c d n : no c n -> split c (append d (String c n)) = split c d ++ [n].
Proof.
  intros N. induction d as [|x d IH]; cbn.
  - rewrite Ascii.eqb_refl. now rewrite split_no.
  - rewrite IH. destruct (Ascii.eqb x c); [reflexivity|]. destruct (split c d) eqn:Ed; [now apply split_nonempty in Ed|reflexivity].
Qed.
Lemma plain_kept n : plain n -> negb (String.eqb n "" || String.eqb n ".") = true.
Proof. intros (_ & N1 & N2 & _). destruct (String.eqb_spec n ""); [contradiction|]. destruct (String.eqb_spec n "."); [contradiction|reflexivity]. Qed.
Lemma file_name_of p n : plain n -> ends_in p n -> file_name p = Some n.
Proof.
  intros Pl En. assert (X : exists l, components p = l ++ [n]).
  { unfold components. destruct En as [->|[d ->]].
    - rewrite split_no by apply Pl. exists []. cbn [filter]. now rewrite (plain_kept _ Pl).
    - rewrite split_app by apply Pl. rewrite filter_app. cbn [filter]. rewrite (plain_kept _ Pl). eauto. }
  destruct X as [l X]. unfold file_name. rewrite X, rev_app_distr. cbn. destruct Pl as (_ & _ & _ & N). now destruct (String.eqb_spec n "..").
Qed.
Lemma last_dot n : no "." n \/ exists a e, no "." e /\ n = append a (String "." e).
Proof.
  induction n as [|x n IH]; [now left|]. destruct IH as [H|(a & e & H & ->)].
  - destruct (ascii_dec x ".") as [->|N]; [|left; split; assumption]. right. exists ""%string, n. auto.
  - right. exists (String x a), e. auto.
Qed.
Lemma rfind_dot a e : no "." e -> rfind "." (append a (String "." e)) = Some (String.length a).
Proof. intros H. exact (rfind_at "." "" e I H a). Qed.
Lemma split_dot_no n : plain n -> no "." n -> split_dot n = (None, Some n).
Proof.
  intros (_ & _ & _ & N) H. unfold split_dot. destruct (String.eqb_spec n ".."); [contradiction|]. now rewrite (rfind_none "." "" n H).
Qed.
Lemma split_dot_at n a e : plain n -> no "." e -> n = append a (String "." e) ->
  split_dot n = if String.eqb a "" then (Some n, None) else (Some a, Some e).
Proof.
  intros (_ & _ & _ & N) H Eq. unfold split_dot. destruct (String.eqb_spec n ".."); [contradiction|].
  assert (R : rfind "." n = Some (String.length a)) by (rewrite Eq; now apply rfind_dot). rewrite R.
  assert (Sb : substring 0 (String.length a) n = a) by (rewrite Eq; apply substring_prefix).
  assert (Fr : from_ (String.length a + 1) n = e).
  { rewrite Eq, append_cons.
    replace (String.length a + 1) with (String.length (append a (String "." EmptyString))) by (rewrite append_length; cbn; lia). apply from_after. }
  destruct a as [|x a]; [reflexivity|]. rewrite Sb, Fr. reflexivity.
Qed.
Lemma append_dot_inj a e a' e' : no "." e -> no "." e' -> append a (String "." e) = append a' (String "." e') -> a = a' /\ e = e'.
Proof.
  intros He He' Eq. pose proof (rfind_dot a e He) as R. rewrite Eq, (rfind_dot a' e' He') in R. injection R as L.
  assert (A : a' = a).
  { rewrite <- (substring_prefix a (String "." e)), <- (substring_prefix a' (String "." e')). now rewrite Eq, L. }
  subst a'. split; [reflexivity|]. pose proof (from_after (append a ".") e) as F. rewrite <- append_cons in F.
  pose proof (from_after (append a ".") e') as F'. rewrite <- append_cons in F'. congruence.
Qed.
Lemma file_stem_of p n s : plain n -> ends_in p n -> file_stem p = Some s <-> stem n s.
Proof.
  intros Pl En. unfold file_stem. rewrite (file_name_of p n Pl En). unfold stem. destruct (last_dot n) as [H|(a & e & H & Eq)].
  - rewrite (split_dot_no n Pl H). split; [intros [= <-]; auto|]. intros [(e & _ & _ & Eq)|[-> _]]; [|reflexivity].
    rewrite Eq in H. apply no_app in H as [_ [N _]]. now destruct N.
  - rewrite (split_dot_at n a e Pl H Eq). destruct (String.eqb_spec a "") as [->|Na].
    + split; [intros [= <-]; right; split; [reflexivity|]; right; eauto|]. intros [(e' & H' & Ns & Eq')|[-> _]]; [|reflexivity].
      rewrite Eq in Eq'. apply append_dot_inj in Eq' as [<- _]; [|assumption..]. now destruct Ns.
    + split; [intros [= <-]; left; eauto|]. intros [(e' & H' & Ns & Eq')|[-> [N|(e' & H' & Eq')]]].
      * rewrite Eq in Eq'. apply append_dot_inj in Eq' as [<- _]; [|assumption..]. reflexivity.
      * rewrite Eq in N. apply no_app in N as [_ [N _]]. now destruct N.
      * rewrite Eq in Eq'. change (String "." e') with (append "" (String "." e')) in Eq'. apply append_dot_inj in Eq' as [-> _]; [|assumption..]. now destruct Na.
Qed.
Lemma extension_json n : plain n -> extension n = Some "json"%string <-> exists s, json_name n s.
Proof.
  intros Pl. unfold extension. rewrite (file_name_of n n Pl (or_introl eq_refl)). unfold json_name.
  assert (J : no "." "json") by (cbn; repeat split; discriminate). destruct (last_dot n) as [H|(a & e & H & Eq)].
  - rewrite (split_dot_no n Pl H). split; [discriminate|]. intros (s & _ & ->). apply no_app in H as [_ [N _]]. now destruct N.
  - rewrite (split_dot_at n a e Pl H Eq). destruct (String.eqb_spec a "") as [->|Na].
    + split; [discriminate|]. intros (s & Ns & Eq'). rewrite Eq in Eq'. apply (append_dot_inj _ _ s "json"%string) in Eq' as [<- _]; [|assumption..]. now destruct Ns.
    + split; [intros [= ->]; exists a; auto|]. intros (s & Ns & Eq'). rewrite Eq in Eq'. apply (append_dot_inj _ _ s "json"%string) in Eq' as [_ ->]; [|assumption..]. reflexivity.
Qed.
Lemma json_stem n s : json_name n s -> stem n s.
Proof. intros [N ->]. left. exists "json"%string. split; [cbn; repeat split; discriminate|]. auto. Qed.
Lemma stem_unique n s s' : plain n -> stem n s -> stem n s' -> s = s'.
Proof. intros Pl H H'. apply (file_stem_of n n s Pl (or_introl eq_refl)) in H. apply (file_stem_of n n s' Pl (or_introl eq_refl)) in H'. congruence. Qed.

(** ** Sorting *)
Lemma ascii_compare a b : Ascii.compare a b = N.compare (N_of_ascii a) (N_of_ascii b).
Proof. reflexivity. Qed.
Lemma leb_cons x a y b : String.leb (String x a) (String y b) = true <-> (N_of_ascii x < N_of_ascii y)%N \/ x = y /\ String.leb a b = true.
Proof.
  unfold String.leb. cbn [String.compare]. destruct (Ascii.compare x y) eqn:C; rewrite ascii_compare in C.
  - apply N.compare_eq_iff in C. assert (x = y) by (rewrite <- (ascii_N_embedding x), <- (ascii_N_embedding y); congruence). subst y.
    split; [auto|]. intros [H|[_ H]]; [lia|exact H].
  - apply N.compare_lt_iff in C. split; auto.
  - apply N.compare_gt_iff in C. split; [discriminate|]. intros [H|[-> _]]; lia.
Qed.
Lemma leb_nil b : String.leb "" b = true.
Proof. destruct b; reflexivity. Qed.
Lemma leb_refl a : String.leb a a = true.
Proof. induction a as [|x a IH]; [reflexivity|]. apply leb_cons. auto. Qed.
Lemma leb_trans a b c : String.leb a b = true -> String.leb b c = true -> String.leb a c = true.
Proof.
  revert b c. induction a as [|x a IH]; intros b c; [intros _ _; apply leb_nil|]. destruct b as [|y b]; [discriminate|]. destruct c as [|z c]; [discriminate|].
  rewrite !leb_cons. intros [H|[-> H]] [H'|[-> H']]; [left; lia|auto|auto|right; eauto].
Qed.
Lemma leb_total a b : String.leb a b = false -> String.leb b a = true.
Proof.
  revert b. induction a as [|x a IH]; intros b H; [now rewrite leb_nil in H|]. destruct b as [|y b]; [reflexivity|]. apply leb_cons.
  destruct (N.lt_total (N_of_ascii x) (N_of_ascii y)) as [L|[L|L]]; [|right|auto].
  - assert (T : String.leb (String x a) (String y b) = true) by (apply leb_cons; auto). congruence.
  - assert (x = y) by (rewrite <- (ascii_N_embedding x), <- (ascii_N_embedding y); congruence). subst y. split; [reflexivity|]. apply IH.
    destruct (String.leb a b) eqn:Q; [|reflexivity]. assert (T : String.leb (String x a) (String x b) = true) by (apply leb_cons; auto). congruence.
Qed.
Lemma leb_antisym a b : String.leb a b = true -> String.leb b a = true -> a = b.
Proof.
  revert b. induction a as [|x a IH]; intros b H H'; [destruct b; [reflexivity|discriminate]|]. destruct b as [|y b]; [discriminate|].
  apply leb_cons in H, H'. destruct H as [H|[-> H]], H' as [H'|[E H']]; try lia; [subst; lia|]. f_equal. auto.
Qed.
Section Sort.
Context (lower : string -> string).
Notation key s := (lower (sc_name s)).
Lemma insert_perm s l : Permutation (s :: l) (insert lower s l).
Proof.
  induction l as [|x l IH]; [auto|]. cbn [insert]. destruct (String.leb _ _); [auto|]. eapply perm_trans; [apply perm_swap|]. now constructor.
Qed.
Lemma insert_sorted s l : StronglySorted (fun a b => String.leb (key a) (key b) = true) l -> StronglySorted (fun a b => String.leb (key a) (key b) = true) (insert lower s l).
Proof.
  induction 1 as [|x l H IH F]; [repeat constructor|]. cbn [insert]. destruct (String.leb (key s) (key x)) eqn:L.
  - constructor; [now constructor|]. constructor; [exact L|]. eapply Forall_impl; [|exact F]. intros y. now apply leb_trans.
  - constructor; [exact IH|]. rewrite Forall_forall in *. intros y Hy. eapply Permutation_in in Hy; [|symmetry; apply insert_perm].
    destruct Hy as [<-|Hy]; [now apply leb_total|auto].
Qed.
Lemma insert_stable s l k : filter (fun s => String.eqb (key s) k) (insert lower s l) = filter (fun s => String.eqb (key s) k) (s :: l).
Proof.
  induction l as [|x l IH]; [reflexivity|]. cbn [insert]. destruct (String.leb (key s) (key x)) eqn:L; [reflexivity|].
  cbn [filter]. rewrite IH. cbn [filter]. destruct (String.eqb_spec (key x) k), (String.eqb_spec (key s) k); try reflexivity.
  assert (String.leb (key s) (key x) = true) by (replace (key s) with (key x) by congruence; apply leb_refl). congruence.
Qed.
Lemma sort_arranged l : arranged lower l (sort_scenes lower l).
Proof.
  induction l as [|s l IH]; [repeat constructor|]. destruct IH as [P O S]. unfold sort_scenes in *. cbn [fold_right]. constructor.
  - eapply perm_trans; [|apply insert_perm]. now constructor.
  - now apply insert_sorted.
  - intros k. rewrite insert_stable. cbn [filter]. now rewrite S.
Qed.
(** Lists arranged the same way are the same. *)
Lemma filter_head k x l l' : StronglySorted (fun a b => String.leb (key a) (key b) = true) (x :: l) ->
  filter (fun s => String.eqb (key s) k) (x :: l) = filter (fun s => String.eqb (key s) k) l' -> key x = k -> In x l'.
Proof.
  intros _ F K. cbn [filter] in F. destruct (String.eqb_spec (key x) k); [|contradiction].
  assert (I : In x (filter (fun s => String.eqb (key s) k) l')) by (rewrite <- F; now left). apply filter_In in I. tauto.
Qed.
Lemma sorted_unique l l' : StronglySorted (fun a b => String.leb (key a) (key b) = true) l -> StronglySorted (fun a b => String.leb (key a) (key b) = true) l' ->
  (forall k, filter (fun s => String.eqb (key s) k) l = filter (fun s => String.eqb (key s) k) l') -> l = l'.
Proof.
  revert l'. induction l as [|x l IH]; intros l' S S' F.
  - destruct l' as [|y l']; [reflexivity|]. specialize (F (key y)). cbn in F. rewrite String.eqb_refl in F. discriminate.
  - destruct l' as [|y l'].
    { specialize (F (key x)). cbn in F. rewrite String.eqb_refl in F. discriminate. }
    assert (K : key x = key y).
    { pose proof (filter_head _ _ _ _ S (F (key x)) eq_refl) as I. pose proof (filter_head _ _ _ _ S' (eq_sym (F (key y))) eq_refl) as I'.
      apply leb_antisym.
      - destruct I' as [<-|I']; [apply leb_refl|]. inversion S as [|? ? _ Fx]; subst. rewrite Forall_forall in Fx. now apply Fx.
      - destruct I as [<-|I]; [apply leb_refl|]. inversion S' as [|? ? _ Fy]; subst. rewrite Forall_forall in Fy. now apply Fy. }
    assert (x = y).
    { specialize (F (key x)). cbn [filter] in F. rewrite String.eqb_refl in F. rewrite <- K, String.eqb_refl in F. now injection F. }
    subst y. f_equal. inversion S; inversion S'; subst. apply IH; [assumption..|]. intros k. specialize (F k). cbn [filter] in F. destruct (String.eqb _ k); [now injection F|exact F].
Qed.
Lemma arranged_unique raw l : arranged lower raw l -> l = sort_scenes lower raw.
Proof.
  intros [_ O S]. destruct (sort_arranged raw) as [_ O' S']. apply sorted_unique; [assumption..|]. intros k. now rewrite S, S'.
Qed.
End Sort.

(** ** C90 *)
Lemma scene_of_ok load p n sc : plain n -> ends_in p n -> example_scene_of load p = Ok sc <-> stem n (sc_name sc) /\ load p = Some (sc_composition sc).
Proof.
  intros Pl En. unfold example_scene_of. assert (X : exists s, file_stem p = Some s).
  { unfold file_stem. rewrite (file_name_of p n Pl En). destruct (last_dot n) as [H|(a & e & H & Eq)].
    - rewrite (split_dot_no n Pl H). eauto.
    - rewrite (split_dot_at n a e Pl H Eq). destruct (String.eqb a ""); eauto. }
  destruct X as [s X]. rewrite X. pose proof (proj1 (file_stem_of p n s Pl En) X) as St. destruct (load p) as [c|].
  - split; [intros [= <-]; auto|]. intros [St' [= ->]]. rewrite (stem_unique n s _ Pl St St'). now destruct sc.
  - split; [discriminate|]. intros [_ [=]].
Qed.
Lemma entries_taken load p es l : (forall n, In (Some n) es -> plain n) ->
  read_entries load p es = Ok (Some l) <-> exists ns, es = map Some ns /\ taken load p ns l.
Proof.
  revert l. induction es as [|e es IH]; intros l Pl; cbn [read_entries].
  - split; [intros [= <-]; exists []; split; [reflexivity|constructor]|]. intros ([|n ns] & Eq & T); [|discriminate]. inversion T. reflexivity.
  - destruct e as [n|]; [|split; [discriminate|intros ([|n ns] & Eq & T); discriminate]].
    assert (Pn : plain n) by (apply Pl; now left). assert (Pes : forall n, In (Some n) es -> plain n) by (intros; apply Pl; now right).
    assert (Ext := extension_json n Pn).
    assert (Skip : (forall s, ~ json_name n s) -> read_entries load p es = Ok (Some l) <-> exists ns, Some n :: es = map Some ns /\ taken load p ns l).
    { intros Nj. rewrite (IH l Pes). split.
      - intros (ns & -> & T). exists (n :: ns). split; [reflexivity|]. now constructor.
      - intros ([|n' ns] & Eq & T); [discriminate|]. cbn [map] in Eq. injection Eq as <- ->. exists ns. split; [reflexivity|].
        inversion T; subst; [assumption|]. now destruct (Nj s). }
    destruct (extension n) as [e|] eqn:Ee; [|apply Skip; intros s J; assert (X : None = Some "json"%string) by (apply Ext; eauto); discriminate].
    destruct (String.eqb_spec e "json") as [->|Ne]; [|apply Skip; intros s J; assert (X : Some e = Some "json"%string) by (apply Ext; eauto); congruence].
    assert (J : exists s, json_name n s) by now apply Ext. destruct J as [s J]. assert (En : ends_in (join p n) n) by (right; exists p; reflexivity).
    split.
    + destruct (example_scene_of load (join p n)) as [sc| |] eqn:Sc; cbn [bind]; try discriminate. apply (scene_of_ok _ _ n) in Sc as [St Ld]; [|assumption..].
      destruct (read_entries load p es) as [[r|]| |] eqn:R; cbn [bind option_map]; try discriminate. intros [= <-].
      destruct (proj1 (IH r Pes) eq_refl) as (ns & -> & T). exists (n :: ns). split; [reflexivity|].
      destruct sc as [nm c]. cbn in St, Ld. rewrite (stem_unique n nm s Pn St (json_stem _ _ J)). now apply tk_take.
    + intros ([|n' ns] & Eq & T); [discriminate|]. cbn [map] in Eq. injection Eq as <- ->. inversion T as [|? ? ? Nj|? s' c ? l' J' Ld T']; subst; [now destruct (Nj s)|].
      assert (Sc : example_scene_of load (join p n) = Ok (mkScene s' c)) by (apply (scene_of_ok _ _ n); [assumption..|]; split; [now apply json_stem|exact Ld]).
      rewrite Sc. cbn [bind]. assert (R : read_entries load p (map Some ns) = Ok (Some l')) by (apply IH; eauto). rewrite R. reflexivity.
Qed.
(** The scenes are those of the paths given, in order: for a directory its
    json files, in the order of their lower-case names, and for anything else
    the file itself; and there are none if anything cannot be read. *)
Theorem C90_exact : forall fs load lower files l, lists_names fs -> (forall p, In p files -> exists n, plain n /\ ends_in p n) ->
  scene_from_files fs load lower files = Ok (Some l) <-> offers fs load lower files l.
Proof.
  intros fs load lower files l Ln. revert l. induction files as [|p ps IH]; intros l Pf; cbn [scene_from_files].
  - split; [intros [= <-]; constructor|]. inversion 1. reflexivity.
  - assert (Ps : forall p, In p ps -> exists n, plain n /\ ends_in p n) by (intros; apply Pf; now right). specialize (IH). destruct (Pf p (or_introl eq_refl)) as (n & Pn & En).
    destruct (fs p) as [|[es|]] eqn:Fp.
    + split.
      * destruct (example_scene_of load p) as [sc| |] eqn:Sc; cbn [bind]; try discriminate. apply (scene_of_ok _ _ n) in Sc as [St Ld]; [|assumption..].
        destruct (scene_from_files fs load lower ps) as [[r|]| |] eqn:R; cbn [bind option_map app]; try discriminate. intros [= <-].
        destruct sc as [s c]. eapply of_file; eauto. now apply IH.
      * inversion 1 as [|? n' s c ? l' ? Pn' En' St Ld O|? ns ? ? ? ? Fd]; subst; [|congruence].
        assert (Sc : example_scene_of load p = Ok (mkScene s c)) by (apply (scene_of_ok _ _ n'); auto). rewrite Sc. cbn [bind].
        apply IH in O; [|assumption]. rewrite O. reflexivity.
    + pose proof (fun r => entries_taken load p es r (fun n => Ln p es n Fp)) as Et. split.
      * destruct (read_entries load p es) as [[raw|]| |] eqn:Re; cbn [bind option_map]; try discriminate.
        destruct (scene_from_files fs load lower ps) as [[r|]| |] eqn:R; cbn [bind option_map]; try discriminate. intros [= <-].
        destruct (proj1 (Et raw) eq_refl) as (ns & -> & T). eapply of_dir; eauto using sort_arranged. now apply IH.
      * inversion 1 as [| |? ns raw b ? l' Fd T A O]; subst; [congruence|]. rewrite Fd in Fp. injection Fp as <-.
        assert (Re : read_entries load p (map Some ns) = Ok (Some raw)) by (apply Et; eauto). rewrite Re. cbn [bind option_map].
        apply IH in O; [|assumption]. rewrite O. cbn [bind option_map]. now rewrite (arranged_unique _ _ _ A).
    + cbn [bind]. split; [discriminate|]. inversion 1; congruence.
Qed.

(** ** The order does not depend on the system *)
(** The same files, with the entries of directories in another order. *)
Definition reordered (fs fs' : string -> node) : Prop := forall p,
  fs p = fs' p \/ exists ns ns', fs p = Dir (Some (map Some ns)) /\ fs' p = Dir (Some (map Some ns')) /\ Permutation ns ns'.
(** No two json files of a directory have names that are the same in lower case. *)
Definition distinct_names (lower : string -> string) (fs : string -> node) : Prop := forall p ns n n' s s' i j, fs p = Dir (Some (map Some ns)) ->
  nth_error ns i = Some n -> nth_error ns j = Some n' -> json_name n s -> json_name n' s' -> lower s = lower s' -> i = j.
Lemma taken_perm load p ns ns' l : Permutation ns ns' -> taken load p ns l -> exists l', taken load p ns' l' /\ Permutation l l'.
Proof.
  intros P. revert l. induction P as [|n ns ns' P IH|n m ns|ns ms ks P1 IH1 P2 IH2]; intros l T.
  - exists l. auto.
  - inversion T as [|? ? ? Nj T'|? s c ? l0 J Ld T']; subst.
    + destruct (IH l T') as (l' & H & Q). exists l'. split; [now constructor|exact Q].
    + destruct (IH l0 T') as (l' & H & Q). exists (mkScene s c :: l'). split; [now constructor|now constructor].
  - inversion T as [|? ? ? Nj T'|? s c ? l0 J Ld T']; subst; inversion T' as [|? ? ? Nj' T2|? s' c' ? l1 J' Ld' T2]; subst.
    + exists l. split; [now repeat constructor|auto].
    + exists (mkScene s' c' :: l1). split; [apply tk_take; auto; now constructor|auto].
    + exists (mkScene s c :: l0). split; [apply tk_skip; auto; now constructor|auto].
    + exists (mkScene s' c' :: mkScene s c :: l1). split; [repeat (apply tk_take; auto)|apply perm_swap].
  - destruct (IH1 l T) as (l1 & T1 & Q1). destruct (IH2 l1 T1) as (l2 & T2 & Q2). exists l2. split; [exact T2|]. eapply perm_trans; eauto.
Qed.
Lemma taken_names load p ns l : taken load p ns l -> forall sc, In sc l -> exists i n, nth_error ns i = Some n /\ json_name n (sc_name sc).
Proof.
  induction 1 as [|n ns l Nj T IH|n s c ns l J Ld T IH]; intros sc I; [destruct I| |].
  - destruct (IH sc I) as (i & m & H). exists (S i), m. exact H.
  - destruct I as [<-|I]; [exists 0, n; auto|]. destruct (IH sc I) as (i & m & H). exists (S i), m. exact H.
Qed.
Lemma taken_distinct (lower : string -> string) load p ns l : taken load p ns l ->
  (forall n n' s s' i j, nth_error ns i = Some n -> nth_error ns j = Some n' -> json_name n s -> json_name n' s' -> lower s = lower s' -> i = j) ->
  NoDup (map (fun sc => lower (sc_name sc)) l).
Proof.
  induction 1 as [|n ns l Nj T IH|n s c ns l J Ld T IH]; intros D; [apply NoDup_nil| |].
  - apply IH. intros m m' s s' i j H H' Hm Hm' E. assert (S i = S j) by (eapply (D m m'); eauto). congruence.
  - cbn [map]. apply NoDup_cons.
    + rewrite in_map_iff. intros (sc & E & I). destruct (taken_names _ _ _ _ T sc I) as (i & m & H & Hm). cbn in E.
      assert (X : S i = 0) by (eapply (D m n); eauto). discriminate.
    + apply IH. intros m m' s0 s' i j H H' Hm Hm' E. assert (S i = S j) by (eapply (D m m'); eauto). congruence.
Qed.
Lemma filter_distinct (lower : string -> string) (l l' : list scene) k : NoDup (map (fun sc => lower (sc_name sc)) l) -> Permutation l l' ->
  filter (fun s => String.eqb (lower (sc_name s)) k) l = filter (fun s => String.eqb (lower (sc_name s)) k) l'.
Proof.
  intros ND P. induction P as [|x l l' P IH|x y l|l1 l2 l3 P1 IH1 P2 IH2]; [reflexivity| | |].
  - inversion ND; subst. cbn [filter]. now rewrite IH.
  - cbn [filter]. destruct (String.eqb_spec (lower (sc_name x)) k) as [Ex|], (String.eqb_spec (lower (sc_name y)) k) as [Ey|]; try reflexivity.
    exfalso. inversion ND as [|? ? N _]; subst. apply N. left. congruence.
  - rewrite IH1 by exact ND. apply IH2. eapply Permutation_NoDup; [|exact ND]. now apply Permutation_map.
Qed.
(** The same scenes in the same order, if no two json files of a directory
    have names that differ only in case. *)
Theorem C90_order_partial : forall fs fs' load lower files l, lists_names fs -> lists_names fs' -> (forall p, In p files -> exists n, plain n /\ ends_in p n) ->
  reordered fs fs' -> distinct_names lower fs ->
  scene_from_files fs load lower files = Ok (Some l) -> scene_from_files fs' load lower files = Ok (Some l).
Proof.
  intros fs fs' load lower files l Ln Ln' Pf Re Di H. apply C90_exact in H; [|assumption..]. apply C90_exact; [assumption..|].
  clear Pf Ln Ln'. induction H as [|p n s c ps l Fp Pn En St Ld O IH|p ns raw b ps l Fp T A O IH]; [constructor| |].
  - eapply of_file; eauto. destruct (Re p) as [Eq|(ns & ns' & Eq & _)]; congruence.
  - destruct (Re p) as [Eq|(ns1 & ns' & Eq & Eq' & P)]; [eapply of_dir; eauto; congruence|].
    assert (ns1 = ns) as ->.
    { rewrite Fp in Eq. injection Eq as Eq. clear - Eq. revert ns1 Eq. induction ns as [|n ns IH]; intros [|m ms] Eq; try discriminate; [reflexivity|].
      cbn in Eq. injection Eq as -> Eq. f_equal. now apply IH. }
    destruct (taken_perm _ _ _ _ _ P T) as (raw' & T' & P'). eapply of_dir; [exact Eq'|exact T'| |exact IH].
    assert (ND : NoDup (map (fun sc => lower (sc_name sc)) raw)) by (eapply taken_distinct; [exact T|]; intros; eapply (Di p ns); eauto).
    destruct A as [Ap Ao As]. constructor; [|exact Ao|].
    + eapply perm_trans; [symmetry; exact P'|exact Ap].
    + intros k. rewrite As. now apply filter_distinct.
Qed.
(** A directory with two names that differ only in case is shown in the order
    the system lists it. *)
Definition lower_ascii (s : string) : string :=
  (fix go s := match s with EmptyString => EmptyString | String x s => String (let n := nat_of_ascii x in if (65 <=? n) && (n <=? 90) then ascii_of_nat (n + 32) else x) (go s) end) s.
Definition folder (ns : list string) (p : string) : node := if String.eqb p "dir" then Dir (Some (map Some ns)) else NotDir.
Theorem C90_refuted : let ns := ["a.json"; "A.json"]%string in
  Permutation ns (rev ns) /\ lists_names (folder ns) /\ lists_names (folder (rev ns)) /\
  scene_from_files (folder ns) (fun _ => Some comp1) lower_ascii ["dir"%string] = Ok (Some [mkScene "a" comp1; mkScene "A" comp1]) /\
  scene_from_files (folder (rev ns)) (fun _ => Some comp1) lower_ascii ["dir"%string] = Ok (Some [mkScene "A" comp1; mkScene "a" comp1]).
Proof.
  cbv zeta. split; [apply Permutation_rev|].
  assert (L : forall ns, (forall n, In n ns -> plain n) -> lists_names (folder ns)).
  { intros ns H p es n. unfold folder. destruct (String.eqb p "dir"); [|discriminate]. intros [= <-] I. apply in_map_iff in I as (m & [= ->] & I). auto. }
  assert (Pl : forall n, In n ["a.json"; "A.json"]%string -> plain n) by (intros n [<-|[<-|[]]]; cbn; repeat split; discriminate).
  split; [now apply L|]. split; [apply L; intros n I; apply Pl; cbn in *; tauto|]. split; reflexivity.
Qed.
(** Something is offered: a file and a directory of three, of which two are scenes. *)
Example C90_applies : let fs := folder ["b.json"; "notes.txt"; "A.json"]%string in let files := ["x/wave.json"; "dir"]%string in
  lists_names fs /\ (forall p, In p files -> exists n, plain n /\ ends_in p n) /\ distinct_names lower_ascii fs /\
  scene_from_files fs (fun _ => Some comp1) lower_ascii files = Ok (Some [mkScene "wave" comp1; mkScene "A" comp1; mkScene "b" comp1]).
Proof.
  cbv zeta. split; [|split; [|split; [|reflexivity]]].
  - intros p es n. unfold folder. destruct (String.eqb p "dir"); [|discriminate]. intros [= <-] [[= <-]|[[= <-]|[[= <-]|[]]]]; cbn; repeat split; discriminate.
  - intros p [<-|[<-|[]]]; [exists "wave.json"%string|exists "dir"%string]; (split; [cbn; repeat split; discriminate|]); [right; exists "x"%string; reflexivity|now left].
  - intros p ns n n' s s' i j. unfold folder. destruct (String.eqb p "dir"); [|discriminate]. intros [= Eq] Hi Hj [_ ->] [_ ->] L.
    destruct ns as [|n1 [|n2 [|n3 [|]]]]; try discriminate. cbn in Eq. injection Eq as <- <- <-.
    assert (X : forall k t, nth_error ["b.json"; "notes.txt"; "A.json"]%string k = Some (append t ".json") -> k = 0 /\ t = "b"%string \/ k = 2 /\ t = "A"%string).
    { clear. assert (U : forall a t, append a ".json" = append t ".json" -> a = t).
      { intros a t H. apply (append_dot_inj a "json" t "json") in H as [H _]; [exact H|cbn; repeat split; discriminate..]. }
      intros [|[|[|k]]] t H; cbn [nth_error] in H.
      - left. split; [reflexivity|]. symmetry. apply (U "b"%string). now injection H.
      - exfalso. assert (T : append "notes" (String "." "txt") = append t (String "." "json")) by now injection H.
        apply append_dot_inj in T as [_ T]; [discriminate|cbn; repeat split; discriminate..].
      - right. split; [reflexivity|]. symmetry. apply (U "A"%string). now injection H.
      - destruct k; discriminate. }
    apply X in Hi as [[-> ->]|[-> ->]], Hj as [[-> ->]|[-> ->]]; try reflexivity; discriminate.
Qed.
