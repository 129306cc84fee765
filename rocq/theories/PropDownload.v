(** C76: downloading files. *)
From Coq Require Import ZArith Bool List String Ascii Arith Lia.
From Verif Require Import Download.
Import ListNotations.
Open Scope list_scope.
Open Scope nat_scope.
Open Scope string_scope.

(** ** Names *)
(** [no c s]: the character does not occur in the string. *)
Fixpoint no (c : ascii) (s : string) : Prop :=
  match s with EmptyString => True | String x s => x <> c /\ no c s end.
Lemma find_none c s : no c s -> find_char c s = None.
Proof.
  induction s as [|x s IH]; [reflexivity|]. cbn. intros [N H]. destruct (Ascii.eqb_spec x c); [contradiction|]. now rewrite IH.
Qed.
Lemma append_length (a b : string) : String.length (append a b) = String.length a + String.length b.
Proof. induction a as [|x a IH]; [reflexivity|]. cbn. now rewrite IH. Qed.
Lemma find_first c a b : no c a -> find_char c (append a (String c b)) = Some (String.length a).
Proof.
  induction a as [|x a IH]; cbn.
  - intros _. now rewrite Ascii.eqb_refl.
  - intros [N H]. destruct (Ascii.eqb_spec x c); [contradiction|]. now rewrite IH.
Qed.
Lemma substring_prefix a b : substring 0 (String.length a) (append a b) = a.
Proof. induction a as [|x a IH]; cbn; [now destruct b|]. now rewrite IH. Qed.
Lemma substring_all a : substring 0 (String.length a) a = a.
Proof. induction a as [|x a IH]; [reflexivity|]. cbn. now rewrite IH. Qed.
Lemma substring_after a b : substring (String.length a) (String.length b) (append a b) = b.
Proof. induction a as [|x a IH]; cbn; [apply substring_all|exact IH]. Qed.
Lemma from_after a b : from_ (String.length a) (append a b) = b.
Proof. unfold from_. rewrite append_length. replace (String.length a + String.length b - String.length a) with (String.length b) by lia. apply substring_after. Qed.
Lemma append_cons a c b : append a (String c b) = append (append a (String c EmptyString)) b.
Proof. induction a as [|x a IH]; [reflexivity|]. cbn. now rewrite IH. Qed.
Lemma prefix_app p s : prefix p (append p s) = true.
Proof. induction p as [|x p IH]; [now destruct s|]. cbn. destruct (ascii_dec x x); [exact IH|congruence]. Qed.
Lemma prefix_no c p s : prefix (String c p) s = true -> ~ no c s.
Proof. destruct s as [|x s]; [discriminate|]. cbn. destruct (ascii_dec c x) as [->|]; [intros _ [N _]; now apply N|discriminate]. Qed.
Lemma rfind_none c p s : no c s -> rfind (String c p) s = None.
Proof.
  induction s as [|x s IH]; [reflexivity|]. intros H. pose proof H as [_ H']. cbn [rfind]. rewrite (IH H').
  destruct (prefix (String c p) (String x s)) eqn:P; [|reflexivity]. now apply prefix_no in P.
Qed.
Lemma rfind_at c p s : no c p -> no c s -> forall a, rfind (String c p) (append a (append (String c p) s)) = Some (String.length a).
Proof.
  intros Np Ns. assert (Nps : no c (append p s)).
  { clear -Np Ns. induction p as [|x p IH]; [exact Ns|]. cbn. destruct Np. auto. }
  induction a as [|x a IH].
  - cbn [append]. cbn [rfind]. rewrite (rfind_none _ _ _ Nps). change (String c (append p s)) with (append (String c p) s). now rewrite prefix_app.
  - change (append (String x a) (append (String c p) s)) with (String x (append a (append (String c p) s))).
    set (t := append a (append (String c p) s)) in *. cbn [rfind String.length]. now rewrite IH.
Qed.
(** A file prefix is what is in front of the first [@]; otherwise the name is
    the last part of the address, without [.json]. *)
Theorem C76_named : forall name url, no "@" name -> parse_download (append name (String "@" url)) = mkDownload name url None.
Proof.
  intros name url N. unfold parse_download. rewrite (find_first _ _ _ N), substring_prefix. f_equal.
  rewrite append_cons. replace (String.length name + 1) with (String.length (append name (String "@" EmptyString))) by (rewrite append_length; cbn; lia). apply from_after.
Qed.
Lemma no_app c a b : no c (append a b) <-> no c a /\ no c b.
Proof. induction a as [|x a IH]; cbn; [tauto|]. rewrite IH. tauto. Qed.
Theorem C76_last_part : forall dir name, no "@" (append dir (String "/" (append name ".json"))) -> no "/" name ->
  dl_name (parse_download (append dir (String "/" (append name ".json")))) = name /\
  dl_url (parse_download (append dir (String "/" (append name ".json")))) = append dir (String "/" (append name ".json")).
Proof.
  intros dir name Na Ns. unfold parse_download. rewrite (find_none _ _ Na).
  assert (A : append dir (String "/" (append name ".json")) = append (append dir (String "/" name)) (append ".json" "")).
  { clear. induction dir as [|x dir IH]; [reflexivity|]. cbn. cbn in IH. now rewrite IH. }
  rewrite A, (rfind_at "." "json" "") by (cbn; repeat split; discriminate). rewrite substring_prefix.
  assert (B : append dir (String "/" name) = append dir (append "/" name)) by reflexivity. rewrite B, (rfind_at "/" "" name) by (cbn; auto).
  cbn [dl_name dl_url]. split; [|reflexivity].
  change (append "/" name) with (String "/" name). rewrite append_cons.
  replace (String.length dir + 1) with (String.length (append dir (String "/" EmptyString))) by (rewrite append_length; cbn; lia). apply from_after.
Qed.

(** ** Files *)
Section Fetch.
Context (path : string -> string) (writable : string -> bool) (sv : server).
Lemma fetch_cases limit d fs fs' ok : fetch path writable sv limit d fs = (fs', ok) ->
  (fs' = fs /\ ok = false) \/
  (exists c, fs (path (dl_name d)) = None /\ fs' = put fs (path (dl_name d)) c /\
     List.length c <= match dl_size d with Some s => s | None => limit end /\
     (ok = true -> exists f, sv_get sv (dl_url d) = Body c f /\ (f = false \/ List.length c = match dl_size d with Some s => s | None => limit end) /\
        forall s, dl_size d = Some s -> List.length c = s)).
Proof.
  unfold fetch. set (lim := match dl_size d with Some s => s | None => limit end). intros H.
  destruct (negb _); [injection H as <- <-; now left|]. destruct (fs (path (dl_name d))) eqn:Ex; [injection H as <- <-; now left|].
  destruct (negb _); [injection H as <- <-; now left|]. right.
  destruct (sv_get sv (dl_url d)) as [|bytes fails] eqn:G.
  - injection H as <- <-. exists []. split; [reflexivity|]. split; [reflexivity|]. split; [cbn; lia|discriminate].
  - exists (firstn lim bytes). assert (Lb : List.length (firstn lim bytes) <= lim) by (rewrite firstn_length; lia).
    destruct (_ && _) eqn:Fa; [injection H as <- <-; split; [reflexivity|]; split; [reflexivity|]; split; [exact Lb|discriminate]|].
    destruct (Nat.ltb_spec lim (List.length bytes)); [injection H as <- <-; split; [reflexivity|]; split; [reflexivity|]; split; [exact Lb|discriminate]|].
    assert (Fn : firstn lim bytes = bytes) by (apply firstn_all2; lia).
    assert (K : fails = false \/ List.length bytes = lim).
    { destruct fails; [right|now left]. apply andb_false_iff in Fa as [Fa|Fa]; [|discriminate]. apply Nat.ltb_ge in Fa. lia. }
    subst lim. destruct (dl_size d) as [s|]; injection H as <- <-; (split; [reflexivity|]; split; [reflexivity|]; split; [exact Lb|]).
    + intros Q. apply Nat.eqb_eq in Q. exists fails. rewrite Fn in *. split; [reflexivity|]. split; [exact K|]. intros s' [= <-]. exact Q.
    + intros _. exists fails. rewrite Fn. split; [reflexivity|]. split; [exact K|discriminate].
Qed.

(** ** C76 *)
(** Files that are there are never changed, whatever servers and users do. *)
Theorem C76_never_overwrites : forall auto limit ds go fs done failed p c,
  fs p = Some c -> oc_files (run_all path writable sv auto limit ds go fs done failed) p = Some c.
Proof.
  intros auto limit ds. induction ds as [|d ds IH]; intros go fs done failed p c H; [exact H|]. cbn [run_all].
  destruct (fetch path writable sv limit d fs) as [fs' ok] eqn:F.
  assert (H' : fs' p = Some c).
  { destruct (fetch_cases _ _ _ _ _ F) as [[-> _]|(c' & N & -> & _)]; [exact H|]. unfold put. destruct (String.eqb_spec p (path (dl_name d))) as [->|]; [congruence|exact H]. }
  destruct ok; [now apply IH|]. destruct (if auto then false else hd false go); [now apply IH|]. exact H'.
Qed.
(** Every download is accounted for. *)
Theorem C76_counts : forall auto limit ds go fs, let o := run_all path writable sv auto limit ds go fs 0 0 in
  oc_done o + oc_failed o + oc_skipped o = List.length ds /\ (oc_ok o = true -> oc_skipped o = 0).
Proof.
  intros auto limit ds go fs. cbv zeta.
  enough (G : forall ds go fs done failed, let o := run_all path writable sv auto limit ds go fs done failed in
    oc_done o + oc_failed o + oc_skipped o = List.length ds + done + failed /\ (oc_ok o = true -> oc_skipped o = 0)).
  { destruct (G ds go fs 0 0) as [A B]. split; [lia|exact B]. }
  clear. intros ds. induction ds as [|d ds IH]; intros go fs done failed; cbn [run_all].
  - cbn. split; [lia|reflexivity].
  - destruct (fetch path writable sv limit d fs) as [fs' ok]. destruct ok.
    + destruct (IH go fs' (done + 1) failed) as [A B]. cbn [List.length]. split; [lia|exact B].
    + destruct (if auto then false else hd false go).
      * destruct (IH (tl go) fs' done (failed + 1)) as [A B]. cbn [List.length]. split; [lia|exact B].
      * cbn. split; [lia|discriminate].
Qed.
(** A successful download stores what the server sent, of the expected size if
    there is one, and never more than the limit; if the connection broke that
    was exactly at the limit.  Missing: failed downloads, see [C76_refuted]. *)
Theorem C76_success_partial : forall limit d fs fs', fetch path writable sv limit d fs = (fs', true) ->
  exists c broken, sv_get sv (dl_url d) = Body c broken /\ fs' (path (dl_name d)) = Some c /\
    (forall p, p <> path (dl_name d) -> fs' p = fs p) /\
    match dl_size d with Some s => List.length c = s | None => List.length c <= limit /\ (broken = true -> List.length c = limit) end.
Proof.
  intros limit d fs fs' F. destruct (fetch_cases _ _ _ _ _ F) as [[_ H]|(c & N & -> & L & H)]; [discriminate|].
  destruct (H eq_refl) as (f & G & K & Sz). exists c, f. split; [exact G|]. unfold put. rewrite String.eqb_refl. split; [reflexivity|].
  split; [intros p Hp; destruct (String.eqb_spec p (path (dl_name d))); [contradiction|reflexivity]|].
  destruct (dl_size d) as [s|]; [now apply Sz|]. split; [exact L|]. intros ->. destruct K; [discriminate|assumption].
Qed.
(** No download, failed or not, stores more than its limit. *)
Theorem C76_limit : forall limit d fs fs' ok c, fetch path writable sv limit d fs = (fs', ok) ->
  fs (path (dl_name d)) = None -> fs' (path (dl_name d)) = Some c -> List.length c <= match dl_size d with Some s => s | None => limit end.
Proof.
  intros limit d fs fs' ok c F N S. destruct (fetch_cases _ _ _ _ _ F) as [[-> _]|(c' & _ & -> & L & _)]; [congruence|].
  unfold put in S. rewrite String.eqb_refl in S. now injection S as <-.
Qed.
(** A server that has the file, and says so. *)
Definition serves (limit : nat) (d : download) (c : list byte) : Prop :=
  sv_get sv (dl_url d) = Body c false /\
  match dl_size d with
  | Some s => List.length c = s /\ (sv_head sv (dl_url d) = Some None \/ sv_head sv (dl_url d) = Some (Some s))
  | None => List.length c <= limit
  end.
Theorem C76_complete : forall limit d fs c, serves limit d c -> fs (path (dl_name d)) = None -> writable (path (dl_name d)) = true ->
  exists fs', fetch path writable sv limit d fs = (fs', true) /\ fs' (path (dl_name d)) = Some c /\ forall p, p <> path (dl_name d) -> fs' p = fs p.
Proof.
  intros limit d fs c [G S] N W. exists (put fs (path (dl_name d)) c).
  assert (X : fetch path writable sv limit d fs = (put fs (path (dl_name d)) c, true)).
  { unfold fetch. rewrite N, W, G. cbn [negb]. destruct (dl_size d) as [s|].
    - destruct S as [<- [H|H]]; rewrite H; rewrite ?Nat.eqb_refl; cbn [negb]; rewrite firstn_all, Nat.ltb_irrefl, ?andb_false_r, Nat.eqb_refl; reflexivity.
    - cbn [negb]. rewrite firstn_all2 by exact S. rewrite andb_false_r. replace (limit <? List.length c)%nat with false by (symmetry; now apply Nat.ltb_ge). reflexivity. }
  rewrite X. split; [reflexivity|]. unfold put. rewrite String.eqb_refl. split; [reflexivity|].
  intros p Hp. destruct (String.eqb_spec p (path (dl_name d))); [contradiction|reflexivity].
Qed.
(** If the server announces another size than expected nothing is created. *)
Theorem C76_announced : forall limit d fs s n, dl_size d = Some s -> sv_head sv (dl_url d) = Some (Some n) -> n <> s ->
  fetch path writable sv limit d fs = (fs, false).
Proof. intros limit d fs s n S H Ne. unfold fetch. rewrite S, H. replace (n =? s)%nat with false by (symmetry; now apply Nat.eqb_neq). reflexivity. Qed.
(** Without questions, all default files that are not there are downloaded, and
    the others left as they are. *)
Theorem C76_defaults : forall defaults cm accept go fs, cm_downloads cm = None -> cm_auto cm = true -> NoDup (map (fun d => path (dl_name d)) defaults) ->
  (forall d, In d defaults -> fs (path (dl_name d)) = None -> writable (path (dl_name d)) = true /\ exists c, serves (cm_limit cm) d c) ->
  let o := action path writable sv defaults cm accept go fs in
  oc_ok o = true /\ oc_failed o = 0 /\ oc_done o = List.length (filter (fun d => match fs (path (dl_name d)) with Some _ => false | None => true end) defaults) /\
  (forall d, In d defaults -> exists c, oc_files o (path (dl_name d)) = Some c /\ (fs (path (dl_name d)) = Some c \/ fs (path (dl_name d)) = None /\ serves (cm_limit cm) d c)) /\
  (forall p, (forall d, In d defaults -> p <> path (dl_name d)) -> oc_files o p = fs p).
Proof.
  intros defaults cm accept go fs Cd Ca ND Sv. cbv zeta. unfold action, to_download. rewrite Cd, Ca.
  set (missing := filter _ defaults).
  assert (M : forall d, In d missing <-> In d defaults /\ fs (path (dl_name d)) = None).
  { intros d. unfold missing. rewrite filter_In. destruct (fs (path (dl_name d))); intuition discriminate. }
  assert (NM : NoDup (map (fun d => path (dl_name d)) missing)).
  { clear - ND. unfold missing. clear missing. induction defaults as [|d l IH]; [constructor|]. cbn [map filter] in *. inversion ND as [|x y Nin ND']; subst.
    destruct (fs (path (dl_name d))); [now apply IH|]. cbn [map]. constructor; [|now apply IH]. rewrite in_map_iff in *. intros (d' & E & I). apply Nin. exists d'.
    split; [exact E|]. apply filter_In in I. tauto. }
  assert (G : forall ds fs0 n k, NoDup (map (fun d => path (dl_name d)) ds) ->
    (forall d, In d ds -> fs0 (path (dl_name d)) = None /\ writable (path (dl_name d)) = true /\ exists c, serves (cm_limit cm) d c) ->
    let o := run_all path writable sv true (cm_limit cm) ds go fs0 n k in
    oc_ok o = true /\ oc_failed o = k /\ oc_done o = n + List.length ds /\
    (forall d, In d ds -> exists c, oc_files o (path (dl_name d)) = Some c /\ serves (cm_limit cm) d c) /\
    (forall p, (forall d, In d ds -> p <> path (dl_name d)) -> oc_files o p = fs0 p)).
  { clear. induction ds as [|d ds IH]; intros fs0 n k ND H; cbv zeta; cbn [run_all].
    - cbn. rewrite Nat.add_0_r. split; [reflexivity|]. split; [reflexivity|]. split; [reflexivity|]. split; [intros d []|reflexivity].
    - cbn [map] in ND. inversion ND as [|x y Nin ND']; subst. destruct (H d (or_introl eq_refl)) as (N & W & c & S).
      destruct (C76_complete _ _ _ _ S N W) as (fs' & F & P & O). rewrite F.
      destruct (IH fs' (n + 1) k ND') as (I1 & I2 & I3 & I4 & I5).
      { intros d' Hd'. destruct (H d' (or_intror Hd')) as (N' & W' & S'). split; [|split; assumption]. rewrite O; [exact N'|]. intros E. apply Nin. rewrite in_map_iff. eauto. }
      split; [exact I1|]. split; [exact I2|]. split; [rewrite I3; cbn [List.length]; lia|]. split.
      + intros d' [<-|Hd']; [|now apply I4]. exists c. split; [|exact S]. rewrite I5; [exact P|]. intros d' Hd' E. apply Nin. rewrite in_map_iff. eauto.
      + intros p Hp. rewrite I5; [apply O; apply Hp; now left|]. intros d' Hd'. apply Hp. now right. }
  destruct (G missing fs 0 0 NM) as (G1 & G2 & G3 & G4 & G5).
  { intros d Hd. apply M in Hd as [I N]. split; [exact N|]. now apply Sv. }
  split; [exact G1|]. split; [exact G2|]. split; [exact G3|]. split.
  - intros d Hd. destruct (fs (path (dl_name d))) as [c|] eqn:N.
    + exists c. split; [|now left]. rewrite G5; [exact N|]. intros d' Hd' E. apply M in Hd' as [_ N']. rewrite <- E in N'. congruence.
    + destruct (G4 d) as (c & F & S); [now apply M|]. exists c. auto.
  - intros p Hp. apply G5. intros d Hd. apply Hp. now apply M in Hd.
Qed.
End Fetch.
(** Full claim: a failed download leaves nothing behind, so that running again
    repairs it.  It is false: after a connection that breaks, the default file
    stays, cut off, and the next run finds nothing to do, even with a perfect
    connection. *)
Definition half_server : server := mkServer (fun _ => Some (Some 4)) (fun _ => Body (["a"; "b"]%char) true).
Definition good_server : server := mkServer (fun _ => Some (Some 4)) (fun _ => Body (["a"; "b"; "c"; "d"]%char) false).
Definition smile : download := mkDownload "Smile" "https://a/b" (Some 4).
Definition auto_mode : command := mkCommand None true 100.
Theorem C76_refuted : let path := fun n => append n ".json" in
  let first := action path (fun _ => true) half_server [smile] auto_mode true [] (fun _ => None) in
  let second := action path (fun _ => true) good_server [smile] auto_mode true [] (oc_files first) in
  oc_ok first = false /\ oc_failed first = 1 /\ oc_files first "Smile.json" = Some (["a"; "b"]%char) /\
  oc_ok second = true /\ oc_done second = 0 /\ oc_files second "Smile.json" = Some (["a"; "b"]%char).
Proof. vm_compute. auto 7. Qed.
Example C76_applies : let path := fun n => append n ".json" in
  exists fs, fetch path (fun _ => true) good_server 100 smile (fun _ => None) = (fs, true) /\ fs "Smile.json" = Some (["a"; "b"; "c"; "d"]%char) /\
  parse_download "cat@https://x/y.json" = mkDownload "cat" "https://x/y.json" None /\
  parse_download "https://x/y.json" = mkDownload "y" "https://x/y.json" None /\
  serves good_server 100 smile (["a"; "b"; "c"; "d"]%char).
Proof. eexists. split; [reflexivity|]. split; [reflexivity|]. split; [reflexivity|]. split; [reflexivity|]. split; [reflexivity|]. split; [reflexivity|]. first [left; reflexivity|right; reflexivity]. Qed.
