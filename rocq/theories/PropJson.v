(** From JSON to the composition: C62 *)
From Coq Require Import ZArith Bool List String Lia.
From Flocq Require Import Core BinarySingleNaN.
From Verif Require Import F64 Kurbo Value Animated Schema Import ImportSpec RenderSpec Serde SerdeSpec SerdeFacts PropSerde PropSerde2 PropMembers ImportFacts4 PropImport Examples.
Import ListNotations.
Local Open Scope string_scope.
Local Open Scope list_scope.
Local Open Scope nat_scope.

(** a number as a JSON value *)
Definition is_number (v : json) (x : f64) : Prop := v = JFloat x \/ exists n, v = JInt n /\ x = f_of_Z n.
Definition has_number (fs : list (string * json)) (k : string) (x : f64) : Prop :=
  exists v, member k fs = Some v /\ is_number v x.
Definition lacks (fs : list (string * json)) (k : string) : Prop := member k fs = None \/ member k fs = Some JNull.
Definition number_or (fs : list (string * json)) (k : string) (d x : f64) : Prop := lacks fs k /\ x = d \/ has_number fs k x.
Definition string_or (fs : list (string * json)) (k : string) (d x : string) : Prop :=
  lacks fs k /\ x = d \/ member k fs = Some (JStr x).
Definition has_size (fs : list (string * json)) (k : string) (n : Z) : Prop := member k fs = Some (JInt n) /\ (0 <= n < 2 ^ 64)%Z.

Lemma number_req fs k x : reads_req fs k de_f64 x -> has_number fs k x.
Proof. intros (v & M & D). exists v. split; [exact M|]. apply C61_number. exact D. Qed.
Lemma number_opt fs k o d : reads_opt fs k de_f64 o -> number_or fs k d (match o with Some x => x | None => d end).
Proof.
  intros [(-> & L)|(v & x & M & _ & D & ->)]; [left; auto|right]. exists v. split; [exact M|]. apply C61_number. exact D.
Qed.
Lemma string_opt fs k o d : reads_opt fs k de_string o -> string_or fs k d (match o with Some x => x | None => d end).
Proof. intros [(-> & L)|(v & x & M & _ & D & ->)]; [left; auto|right]. apply C61_string in D. now subst v. Qed.
Lemma size_req fs k n : reads_req fs k (de_uint usize_max) n -> has_size fs k n.
Proof. intros (v & M & D). apply C61_unsigned in D. destruct D as (-> & A). split; [exact M|]. unfold usize_max in A. lia. Qed.

Lemma from_json_ok E j c : from_json E j = Some (Ok c) -> exists a, de_animation j = Some a /\ conv_animation E a = Ok c.
Proof. unfold from_json. destruct (de_animation j) as [a|]; [|discriminate]. intros [= H]. eauto. Qed.

(** * The outcome *)
(** [None] is an [Err] *)
Theorem C62_outcome : forall E j,
  (from_json E j = None <-> de_animation j = None) /\
  (forall a, de_animation j = Some a ->
    ((exists c, from_json E j = Some (Ok c)) <-> animation_supported a) /\
    (from_json E j = Some Panic <-> ~ animation_supported a)) /\
  from_json E j <> Some Oof.
Proof.
  intros E j. unfold from_json. destruct (de_animation j) as [a|].
  - destruct (C38_supported E a) as (S & P & O). split; [split; discriminate|]. split.
    + intros a' [= <-]. split; [rewrite <- S; split; intros (c & H); exists c; congruence|rewrite <- P; split; congruence].
    + congruence.
  - split; [split; auto|]. split; discriminate.
Qed.

(** * The header *)
Theorem C62_header : forall E j c, from_json E j = Some (Ok c) -> exists fs, j = JObj fs /\
  has_number fs "ip" (co_in c) /\ has_number fs "op" (co_out c) /\ has_number fs "fr" (co_frame_rate c) /\
  has_size fs "w" (co_width c) /\ has_size fs "h" (co_height c).
Proof.
  intros E j c H. destruct (from_json_ok _ _ _ H) as (a & D & C).
  destruct (C34_layer_list _ _ _ C) as (-> & -> & -> & -> & -> & _).
  destruct j as [| | | | | |fs]; try discriminate D. exists fs. split; [reflexivity|].
  apply C61_animation in D. destruct D as (_ & _ & _ & _ & Fr & Ip & Op & W & Hh & _).
  split; [|split; [|split; [|split]]]; auto using number_req, size_req.
Qed.
Theorem C62_required : forall E fs k, In k ["layers"; "fr"; "ip"; "op"; "w"; "h"] -> lacks fs k -> from_json E (JObj fs) = None.
Proof.
  intros E fs k I L. apply C62_outcome. destruct (de_animation (JObj fs)) as [a|] eqn:D; [exfalso|reflexivity].
  apply C61_animation in D. destruct D as (_ & La & _ & _ & Fr & Ip & Op & W & Hh & _).
  cbn in I. destruct I as [<-|[<-|[<-|[<-|[<-|[<-|[]]]]]]];
    match goal with R : reads_req _ ?k _ _, L : lacks _ ?k |- _ =>
      destruct R as (v & M & D); destruct L as [L|L]; rewrite M in L; [discriminate L|]; injection L as ->; discriminate D end.
Qed.

(** * The layers *)
Lemma visual_layer_members t fs vl : de_visual_layer t fs = Some vl ->
  exists s, de_s_layer t fs = Some s /\ vl_layer vl = s.
Proof. intros H. apply C61_visual_layer in H. destruct H as (H & _). eauto. Qed.
Lemma layer_visual fs src : de_layer (JObj fs) = Some src ->
  exists n, member "ty" fs = Some (JInt n) /\
  match src with
  | AlPrecomp vl _ w h st _ => n = 0%Z /\ de_visual_layer true fs = Some vl /\ reads_req fs "w" de_f64 w /\
      reads_req fs "h" de_f64 h /\ reads_req fs "st" de_f64 st
  | _ => n <> 0%Z /\ de_visual_layer false fs = Some (visual_of src)
  end.
Proof.
  intros D. pose proof D as D'. apply C45_dispatch in D'. destruct D' as (fs' & n & [= <-] & M & C). exists n. split; [exact M|].
  assert (K : n = match kind_of src with KPrecomp => 0 | KSolid => 1 | KImage => 2 | KNull => 3 | KShape => 4 end%Z).
  { unfold layer_codes in C. cbn in C. repeat (destruct C as [[= <- <-]|C]; [reflexivity|]). destruct C. }
  destruct src; cbn [kind_of] in K; subst n.
  - apply (C61_precomposition_layer _ _ M) in D. destruct D as (? & ? & ? & ? & ? & ? & [= -> -> -> -> -> ->] & V & _ & W & Hh & S & _).
    auto.
  - apply (C61_solid_layer _ _ M) in D. destruct D as (? & ? & ? & ? & [= -> -> -> ->] & V & _). split; [discriminate|exact V].
  - apply (C61_shape_layer _ _ M) in D. destruct D as (? & ? & [= -> ->] & V & _). split; [discriminate|exact V].
  - apply (C61_null_layer _ _ M) in D. destruct D as (? & [= ->] & V). split; [discriminate|exact V].
  - apply (C61_image_layer _ _ M) in D. destruct D as (? & ? & [= -> ->] & V & _). split; [discriminate|exact V].
Qed.
Lemma layer_code_of m n src : de_layer (JObj m) = Some src -> member "ty" m = Some (JInt n) -> In n [0; 1; 2; 3; 4]%Z.
Proof.
  intros D M. apply C45_dispatch in D. destruct D as (fs' & n' & [= <-] & M' & C). rewrite M in M'. injection M' as <-.
  unfold layer_codes in C. cbn in C |- *. repeat (destruct C as [[= <- _]|C]; [tauto|]). destruct C.
Qed.
(** what a layer of the composition takes from the JSON object of its source *)
Definition layer_described (v : json) (ly : layer) : Prop :=
  exists m ty, v = JObj m /\ member "ty" m = Some (JInt ty) /\ In ty [0; 1; 2; 3; 4]%Z /\
    string_or m "nm" "" (ly_name ly) /\ has_number m "ip" (ly_in ly) /\ has_number m "op" (ly_out ly) /\
    number_or m "sr" f1 (ly_stretch ly) /\ number_or m "st" f0 (ly_start_frame ly) /\
    (ty = 0%Z -> has_number m "w" (ly_width ly) /\ has_number m "h" (ly_height ly)) /\
    (ty <> 0%Z -> ly_width ly = f0 /\ ly_height ly = f0).
Lemma scope_described E a c s l : conv_animation E a = Ok c ->
  Forall2 (fun v x => de_layer v = Some x) l (source_layers a s) -> Forall2 layer_described l (scope_layers c s).
Proof.
  intros C F. destruct (C34_layer_list _ _ _ C) as (_ & _ & _ & _ & _ & Ls). specialize (Ls s). destruct Ls as [Len Ls].
  assert (FL : List.length l = List.length (source_layers a s)) by (clear -F; induction F; cbn; congruence).
  assert (G : forall i v ly, nth_error l i = Some v -> nth_error (scope_layers c s) i = Some ly -> layer_described v ly).
  2:{ assert (L2 : List.length l = List.length (scope_layers c s)) by congruence. revert G L2. generalize (scope_layers c s). clear.
      induction l as [|v l IH]; intros [|ly lys] G L; try discriminate L; constructor; [exact (G 0 v ly eq_refl eq_refl)|].
      apply IH; [intros i; exact (G (S i))|now injection L]. }
  intros i v ly Nv Nl.
  assert (Src : exists src, nth_error (source_layers a s) i = Some src /\ de_layer v = Some src).
  { clear -F Nv. revert i Nv. induction F as [|w x l xs Hx F IH]; intros [|i] Nv; try discriminate Nv; cbn in *; [|auto].
    injection Nv as <-. eauto. }
  destruct Src as (src & Ns & Dl). unfold layer_described. destruct (Ls i src ly Ns Nl) as (-> & -> & -> & -> & -> & WH).
  pose proof Dl as Dl'. apply C45_dispatch in Dl'. destruct Dl' as (m & n & -> & Mn & _).
  destruct (layer_visual _ _ Dl) as (n' & Mn' & Hv). rewrite Mn in Mn'. injection Mn' as <-.
  exists m, n. split; [reflexivity|]. split; [exact Mn|].
  assert (B : forall t bl, de_s_layer t m = Some bl -> string_or m "nm" "" (match vo_nm (sl_vo bl) with Some x => x | None => "" end) /\
    has_number m "ip" (sl_ip bl) /\ has_number m "op" (sl_op bl) /\ number_or m "sr" f1 (match sl_sr bl with Some x => x | None => f1 end) /\
    (t = false -> number_or m "st" f0 (match sl_st bl with Some x => x | None => f0 end))).
  { intros t bl Hs. apply C61_layer in Hs. destruct Hs as (V & _ & _ & _ & _ & _ & Sr & Ip & Op & St).
    apply C61_visual_object in V. destruct V as (V & _).
    split; [now apply string_opt|]. split; [now apply number_req|]. split; [now apply number_req|]. split; [now apply number_opt|].
    intros ->. now apply number_opt. }
  assert (B2 : forall t, de_visual_layer t m = Some (visual_of src) -> exists s, de_s_layer t m = Some s /\ base_of src = s).
  { intros t V. unfold base_of. now apply visual_layer_members. }
  destruct src as [vl r w h st tm|vl sw sh sc|vl ss|vl|vl r]; cbn [visual_of] in *;
    [destruct Hv as (-> & V & W & Hh & St)|destruct Hv as (Nz & V)..]; destruct (B2 _ V) as (sl & Hs & Eb); destruct (B _ _ Hs) as (B3 & B4 & B5 & B6 & B7);
    unfold src_name, src_stretch, src_start; rewrite Eb; injection WH as -> ->.
  { split; [cbn; tauto|]. split; [exact B3|]. split; [exact B4|]. split; [exact B5|]. split; [exact B6|].
    split; [right; now apply number_req|]. split; [intros _; split; now apply number_req|congruence]. }
  all: split; [apply (layer_code_of m n _ Dl Mn)|]; split; [exact B3|]; split; [exact B4|]; split; [exact B5|]; split; [exact B6|];
    split; [exact (B7 eq_refl)|]; split; [contradiction|split; reflexivity].
Qed.

Theorem C62_layers : forall E fs c, from_json E (JObj fs) = Some (Ok c) ->
  exists l, member "layers" fs = Some (JArr l) /\ Forall2 layer_described l (co_layers c).
Proof.
  intros E fs c H. destruct (from_json_ok _ _ _ H) as (a & D & C).
  apply C61_animation in D. destruct D as (_ & (v & M & D) & _). apply C61_array in D. destruct D as (l & -> & F).
  exists l. split; [exact M|]. exact (scope_described E a c None l C F).
Qed.
(** The layers of a precomposition asset, found by its id, likewise: they are
    the layers of the last asset with that id *)
Definition asset_members (l : list json) (name : string) (m : list (string * json)) : Prop :=
  exists pre post, l = pre ++ JObj m :: post /\ member "id" m = Some (JStr name) /\
  forall m', In (JObj m') post -> member "id" m' <> Some (JStr name).
Lemma forall2_app_r {A B} (R : A -> B -> Prop) : forall l1 l2 ys, Forall2 R (l1 ++ l2) ys ->
  exists y1 y2, ys = y1 ++ y2 /\ Forall2 R l1 y1 /\ Forall2 R l2 y2.
Proof.
  induction l1 as [|x l1 IH]; intros l2 ys F; [exists [], ys; auto|]. cbn in F. inversion F as [|? y ? ys' H F']; subst.
  destruct (IH _ _ F') as (y1 & y2 & -> & F1 & F2). exists (y :: y1), y2. auto.
Qed.
Lemma asset_layers_app l1 l2 name : asset_layers (l1 ++ l2) name =
  match asset_layers l2 name with Some r => Some r | None => asset_layers l1 name end.
Proof.
  induction l1 as [|[|a ls fr xt] l1 IH]; cbn; [destruct (asset_layers l2 name); auto|auto|].
  rewrite IH. destruct (asset_layers l2 name); auto.
Qed.
Lemma asset_read_id v x : de_any_asset v = Some x -> exists m, v = JObj m /\
  match x with
  | AaPrecomp a ls _ _ => member "id" m = Some (JStr (ass_id a)) /\ reads_req m "layers" (de_list de_layer) ls
  | AaImage fa _ _ _ _ => member "layers" m = None
  end.
Proof.
  intros D. destruct v as [| | | | | |m]; try discriminate D. exists m. split; [reflexivity|].
  destruct (member "layers" m) as [w|] eqn:L.
  - apply C61_precomposition in D; [|congruence]. destruct D as (a & ls & fr & xt & -> & A & R & _). split; [|exact R].
    apply C61_asset in A. destruct A as ((u & Mu & Du) & _). apply C61_string in Du. now subst u.
  - destruct x; [reflexivity|]. exfalso. unfold de_any_asset in D. cbn [as_map] in D. rewrite has_member, L in D.
    repeat match type of D with
    | (if ?b then _ else _) = _ => destruct b
    | match ?e with Some _ => _ | None => None end = _ => destruct e
    end; discriminate D.
Qed.
Lemma no_such_asset post xs name : Forall2 (fun v x => de_any_asset v = Some x) post xs ->
  (forall m', In (JObj m') post -> member "id" m' <> Some (JStr name)) -> asset_layers xs name = None.
Proof.
  induction 1 as [|v x post xs Hx F IH]; intros N; [reflexivity|]. destruct (asset_read_id _ _ Hx) as (m & -> & R).
  cbn. destruct x as [fa sl w h t|a ls fr xt]; [apply IH; intros m' I; apply N; now right|].
  rewrite IH by (intros m' I; apply N; now right). destruct R as [R _]. specialize (N m (or_introl eq_refl)). rewrite R in N.
  destruct (String.eqb_spec (ass_id a) name); [congruence|reflexivity].
Qed.
Theorem C62_precompositions : forall E fs c assets name m l, from_json E (JObj fs) = Some (Ok c) ->
  member "assets" fs = Some (JArr assets) -> asset_members assets name m -> member "layers" m = Some (JArr l) ->
  exists lys, find_asset c name = Some lys /\ Forall2 layer_described l lys.
Proof.
  intros E fs c assets name m l H MA (pre & post & -> & Id & Last) ML. destruct (from_json_ok _ _ _ H) as (a & D & C).
  assert (As : Forall2 (fun v x => de_any_asset v = Some x) (pre ++ JObj m :: post) (assets_of a)).
  { apply C61_animation in D. destruct D as (_ & _ & _ & _ & _ & _ & _ & _ & _ & _ & Ra & _).
    destruct Ra as [(_ & [N|N])|(v & x & M & _ & Da & Ea)]; try (rewrite MA in N; discriminate N).
    rewrite MA in M. injection M as <-. apply C61_array in Da. destruct Da as (js & [= <-] & F). unfold assets_of. rewrite Ea. exact F. }
  destruct (forall2_app_r _ _ _ _ As) as (x1 & x2 & Ex & F1 & F2). inversion F2 as [|? x ? x3 Hx F3]; subst. clear F2 As.
  destruct (asset_read_id _ _ Hx) as (m' & [= <-] & R). destruct x as [|aa ls fr xt]; [congruence|]. destruct R as (Ri & w & Mw & Dw).
  rewrite ML in Mw. injection Mw as <-. apply C61_array in Dw. destruct Dw as (js & [= <-] & F).
  assert (SL : asset_layers (assets_of a) name = Some ls).
  { rewrite Ex, asset_layers_app. cbn. rewrite (no_such_asset _ _ _ F3 Last). replace (ass_id aa) with name by congruence.
    now rewrite String.eqb_refl. }
  assert (FA : exists lys, find_asset c name = Some lys).
  { apply conv_animation_ok in C. destruct C as (am & C1 & _ & ->). pose proof (conv_assets_lookup E _ _ _ C1 name) as L.
    rewrite SL in L. destruct L as (lys & L & _). exists lys. unfold find_asset. cbn. unfold lookup in L.
    destruct (find _ am) as [[? ?]|]; [|discriminate]. exact L. }
  destruct FA as (lys & FA). exists lys. split; [exact FA|].
  pose proof (scope_described E a c (Some name) l C) as G. cbn [source_layers scope_layers] in G. rewrite SL, FA in G. exact (G F).
Qed.

(** two assets with the same id: the second counts *)
Definition jlayer (n : Z) (more : list (string * json)) : json :=
  JObj ([("ty", JInt n); ("ip", num 1); ("op", JFloat f1);
         ("ks", JObj [("p", JObj [("k", JArr [num 1; num 2])]); ("r", JObj [("k", num 0)])]); ("st", num 2)] ++ more).
Definition doc_assets : list json :=
  [JObj [("id", JStr "comp"); ("layers", JArr [])];
   JObj [("id", JStr "comp"); ("layers", JArr [jlayer 3 [("nm", JStr "inner")]])]].
Definition doc_header : json :=
  JObj [("fr", num 60); ("ip", num 0); ("op", num 60); ("w", num 5); ("h", num 7); ("assets", JArr doc_assets);
        ("layers", JArr [jlayer 3 []; jlayer 0 [("refId", JStr "comp"); ("w", num 5); ("h", num 6); ("sr", num 2)]])].
Example C62_witness :
  match from_json E0 doc_header with
  | Some (Ok c) => Nat.eqb (List.length (co_layers c)) 2 &&
                   match find_asset c "comp" with Some [ly] => String.eqb (ly_name ly) "inner" | _ => false end
  | _ => false
  end = true /\
  exists m, asset_members doc_assets "comp" m /\ member "layers" m = Some (JArr [jlayer 3 [("nm", JStr "inner")]]).
Proof.
  split; [vm_compute; reflexivity|]. exists [("id", JStr "comp"); ("layers", JArr [jlayer 3 [("nm", JStr "inner")]])]. split; [|reflexivity].
  exists [JObj [("id", JStr "comp"); ("layers", JArr [])]], []. split; [reflexivity|]. split; [reflexivity|]. intros m' [].
Qed.
(** and a document that is rejected, and one on which the import panics *)
Example C62_witness_outcomes :
  from_json E0 (JObj []) = None /\
  match from_json E0 (JObj [("fr", num 60); ("ip", num 0); ("op", num 60); ("w", num 5); ("h", num 7);
                            ("layers", JArr []); ("assets", JArr [JObj [("id", JStr "img"); ("p", JStr "img.png"); ("w", num 3)]])]) with
  | Some Panic => true | _ => false end = true.
Proof. split; vm_compute; reflexivity. Qed.
