(** C76: exactly when a download succeeds, and exactly what one that fails leaves
    behind. *)
From Coq Require Import ZArith Bool List Arith String Ascii Lia.
From Verif Require Import Download PropDownload.
Import ListNotations.
Close Scope string_scope.
Open Scope list_scope.
Open Scope nat_scope.

(** ** Specification *)
(** The server does not say that the file is missing or of another size than
    expected. *)
Definition announced (sv : server) (d : download) : Prop :=
  match dl_size d with
  | None => True
  | Some s => sv_head sv (dl_url d) = Some None \/ sv_head sv (dl_url d) = Some (Some s)
  end.
Definition most (limit : nat) (d : download) : nat := match dl_size d with Some s => s | None => limit end.
(** The whole file came, or with a broken connection as much as is allowed. *)
Definition arrives (sv : server) (limit : nat) (d : download) (c : list byte) : Prop :=
  exists broken, sv_get sv (dl_url d) = Body c broken /\
    match dl_size d with Some s => List.length c = s | None => List.length c <= limit /\ (broken = true -> List.length c = limit) end.
(** What was received before it ended. *)
Definition received (sv : server) (d : download) : list byte := match sv_get sv (dl_url d) with Body c _ => c | NoAnswer => [] end.

Section Fetch.
Context (path : string -> string) (writable : string -> bool) (sv : server).
Definition starts_file (d : download) (fs : files) : Prop :=
  announced sv d /\ fs (path (dl_name d)) = None /\ writable (path (dl_name d)) = true.
Lemma head_cases d : announced sv d \/ (~ announced sv d /\ forall limit fs, fetch path writable sv limit d fs = (fs, false)).
Proof.
  unfold announced, fetch. destruct (dl_size d) as [s|]; [|now left]. destruct (sv_head sv (dl_url d)) as [[n|]|] eqn:H.
  - destruct (Nat.eqb_spec n s) as [->|Ne]; [left; now right|right]. split; [intros [X|X]; congruence|reflexivity].
  - left. now left.
  - right. split; [intros [X|X]; congruence|reflexivity].
Qed.
Lemma head_ok d : announced sv d -> match dl_size d with
    | Some s => match sv_head sv (dl_url d) with None => false | Some (Some n) => n =? s | Some None => true end
    | None => true end = true.
Proof. unfold announced. destruct (dl_size d) as [s|]; [|reflexivity]. intros [->| ->]; [reflexivity|]. apply Nat.eqb_refl. Qed.
(** A download succeeds if and only if the server has the file, there is none
    yet, it can be created, and all of it arrives. *)
Theorem C76_exact : forall limit d fs, snd (fetch path writable sv limit d fs) = true <-> starts_file d fs /\ exists c, arrives sv limit d c.
Proof.
  intros limit d fs. destruct (head_cases d) as [A|[A N]].
  2:{ rewrite N. split; [discriminate|]. intros [[X _] _]. contradiction. }
  unfold fetch. rewrite (head_ok d A). cbn [negb]. unfold starts_file, arrives. destruct (fs (path (dl_name d))) as [x|].
  { split; [discriminate|]. intros [(_ & X & _) _]. discriminate. }
  destruct (writable (path (dl_name d))); cbn [negb].
  2:{ split; [discriminate|]. intros [(_ & _ & X) _]. discriminate. }
  destruct (sv_get sv (dl_url d)) as [|c br].
  { split; [discriminate|]. intros [_ (c & b & X & _)]. discriminate. }
  assert (S : forall P : Prop, P -> (announced sv d /\ @None (list byte) = None /\ true = true) /\ P) by tauto.
  assert (W : forall P : Prop, (announced sv d /\ @None (list byte) = None /\ true = true) /\ P -> P) by tauto.
  destruct (dl_size d) as [s|]; destruct (Nat.ltb_spec (List.length c) (match dl_size d with Some s => s | None => limit end)) as [_|_].
  all: try (destruct (Nat.ltb_spec (List.length c) s) as [L|L]); try (destruct (Nat.ltb_spec (List.length c) limit) as [L|L]).
  all: destruct br; cbn [andb]; repeat match goal with |- context [?a <? ?b] => destruct (Nat.ltb_spec a b) end; cbn [snd].
  all: try rewrite firstn_length; try (rewrite Nat.eqb_eq); split; intros H0; try discriminate; try lia; try reflexivity.
  all: try (apply W in H0; destruct H0 as (c' & b & X & Y); injection X as <- <-; try (destruct Y as [Y Z]); try specialize (Z eq_refl); lia).
  all: apply S; exists c; eexists; split; [reflexivity|]; try (split; [|intros; try discriminate]); lia.
Qed.
(** A download that fails leaves a file if and only if it got as far as
    creating one; in it is what was received, up to the limit. *)
Theorem C76_leaves : forall limit d fs fs', fetch path writable sv limit d fs = (fs', false) ->
  (forall p, p <> path (dl_name d) -> fs' p = fs p) /\
  (starts_file d fs -> fs' (path (dl_name d)) = Some (firstn (most limit d) (received sv d))) /\
  (~ starts_file d fs -> fs' = fs).
Proof.
  intros limit d fs fs' F. destruct (head_cases d) as [A|[A N]].
  2:{ rewrite N in F. injection F as <-. split; [reflexivity|]. split; [intros [X _]; contradiction|reflexivity]. }
  unfold fetch in F. rewrite (head_ok d A) in F. cbn [negb] in F. unfold starts_file. destruct (fs (path (dl_name d))) as [x|] eqn:Ef.
  { injection F as <-. split; [reflexivity|]. split; [intros (_ & X & _); discriminate|reflexivity]. }
  destruct (writable (path (dl_name d))); cbn [negb] in F.
  2:{ injection F as <-. split; [reflexivity|]. split; [intros (_ & _ & X); discriminate|reflexivity]. }
  assert (P : fs' = put fs (path (dl_name d)) (firstn (most limit d) (received sv d))).
  { unfold received, most. destruct (sv_get sv (dl_url d)) as [|c br].
    - injection F as <-. now rewrite firstn_nil.
    - revert F. destruct (_ && br); [intros F; now injection F as <-|]. destruct (_ <? _); [intros F; now injection F as <-|]. destruct (dl_size d); intros F; now injection F as <-. }
  subst fs'. unfold put. split; [|split].
  - intros p Hp. destruct (String.eqb_spec p (path (dl_name d))); [contradiction|reflexivity].
  - intros _. now rewrite String.eqb_refl.
  - intros X. exfalso. apply X. auto.
Qed.
End Fetch.
(** With such a file no later download under that name succeeds, whatever the
    server and the limit are; without one, and if a file can be created at all,
    it does with some server. *)
Theorem C76_repairs : forall path writable sv limit d fs fs',
  fs (path (dl_name d)) = None -> fetch path writable sv limit d fs = (fs', false) ->
  ((exists sv2 limit2, snd (fetch path writable sv2 limit2 d fs') = true) <->
   writable (path (dl_name d)) = true /\ ~ starts_file path writable sv d fs).
Proof.
  intros path writable sv limit d fs fs' N F. destruct (C76_leaves path writable sv limit d fs fs' F) as (_ & L1 & L2). split.
  - intros (sv2 & l2 & S). apply C76_exact in S as [(_ & S1 & S2) _]. split; [exact S2|]. intros X. rewrite (L1 X) in S1. discriminate.
  - intros [W X]. rewrite (L2 X). exists (mkServer (fun _ => Some None) (fun _ => Body (repeat "0"%char (most 0 d)) false)), 0.
    apply C76_exact. split.
    + split; [|split; assumption]. unfold announced. destruct (dl_size d); [now left|exact I].
    + exists (repeat "0"%char (most 0 d)), false. split; [reflexivity|]. unfold most. destruct (dl_size d); rewrite repeat_length; [reflexivity|]. split; [lia|discriminate].
Qed.
Example C76_leaves_applies : let path := fun n => append n ".json" in
  let fs := fst (fetch path (fun _ => true) half_server 100 smile (fun _ => None)) in
  snd (fetch path (fun _ => true) half_server 100 smile (fun _ => None)) = false /\ starts_file path (fun _ => true) half_server smile (fun _ => None) /\ fs "Smile.json"%string = Some ["a"%char; "b"%char] /\ snd (fetch path (fun _ => true) good_server 100 smile (fun _ => None)) = true.
Proof.
  cbv zeta. split; [reflexivity|]. split; [|split; reflexivity]. split; [|split; reflexivity]. unfold announced. cbn.
  first [left; reflexivity|right; reflexivity].
Qed.
