(** Properties C42, C43, C45-C49: the verkle tree.

    Specification.  [latest pathof h p] is the value last put under path p in the history h, [below pathof h q] says that
    some id of h has a path starting with q, [total F k M] is the sum of M over all paths of length k over 0..F-1
    (Sparse_facts.v, Verkle_run.v).  [stored db key w]: the database holds under the key an encoding of the vertex w
    (Verkle_facts.v).  [values_vec F w] is the vector (value 0, ..., value F-1, sum, blinding factor) and [digests_vec F w]
    the vector (digest 0, ..., digest F-1, 0, 0). *)
From Verif Require Import Verkle_run Prop_pp Extract Toy.
Local Open Scope Zr_scope.

(** A run: a tree of fanout F over parameters with trapdoor α, on any database, after the Puts h.  The randomness and the
    orders of map iteration are arbitrary. *)
Definition verkle_run {C : Curve} (F : nat) (α : Zr) (rnd : nat -> Zr) (order : nat -> bool -> gmap nat Zr -> list (nat * Zr))
    (id2path : string -> res path) (h : list (string * Z)) (t : VTree) : Prop :=
  (forall k b m, order k b m ≡ₚ map_to_list m) /\ exists db0, VPuts (C:=C) F α rnd order id2path (NewVerkleTree db0) h = Ret t.
(** The ids of the history have paths of n elements, all below the fanout; the fanout fits in 16 bits with two to spare *)
Definition fixed_paths (F : nat) (id2path : string -> res path) (pathof : string -> path) (n : nat) (h : list (string * Z)) : Prop :=
  (Z.of_nat F + 2 < 65536)%Z /\
  forall id z, (id, z) ∈ h -> id2path id = Ret (pathof id) /\ length (pathof id) = n /\ Forall (fun i => i < F)%nat (pathof id).

(** Such runs do not fail. *)
Theorem C45_runs_succeed (C : Curve) F α rnd order id2path pathof n h db0 :
  fixed_paths F id2path pathof n h -> (forall k b m, order k b m ≡ₚ map_to_list m) ->
  exists t, VPuts (C:=C) F α rnd order id2path (NewVerkleTree db0) h = Ret t.
Proof. intros [HF Hg] Ho. destruct (verkle_history (C:=C) F α rnd order id2path pathof HF Ho n h db0 Hg) as (t & Ht & _). eauto. Qed.

(** ** C42 *)
Lemma path_key_prefix_length q r : (String.length (path_key q) <= String.length (path_key (q ++ r)))%nat.
Proof.
  induction r as [|i r IH] using rev_ind; [rewrite app_nil_r; done|]. rewrite app_assoc, path_key_snoc.
  assert (L : forall s, length (string_bytes s) = String.length s) by (clear; intros s; induction s; cbn; congruence).
  rewrite <- (L (child_key _ _)), child_key_bytes, app_length, L. lia.
Qed.
(** The stream consists of one record per vertex, all with an empty vertex field. *)
Theorem C42_no_contents (C : Curve) F α rnd order id2path pathof h t ord :
  verkle_run (C:=C) F α rnd order id2path h t -> h <> [] -> (forall s l, ord s l ≡ₚ l) ->
  (forall id z, (id, z) ∈ h -> id2path id = Ret (pathof id) /\ (Z.of_nat (String.length (path_key (pathof id))) + 12 < 2 ^ 31)%Z) ->
  exists out qs, VSerialize ord t = Ret out /\
    read_stream out = Some ((fun q => (string_bytes (path_key q), [])) <$> qs) /\ NoDup qs /\
    forall q, q ∈ qs <-> below pathof h q.
Proof.
  intros [_ [db0 Ht]] Hne Hord Hh. rewrite VPuts_Puts in Ht. apply rbind_inv in Ht as ([st r] & Ht & E). injection E as <-.
  change (vt_tree (NewVerkleTree db0)) with (@None (vtx vdat)) in Ht.
  assert (Hp0 : forall id d, (id, d) ∈ ((fun '(id, z) => (id, Some (DInt z))) <$> h : list (string * option vdat)) -> id2path id = Ret (pathof id)).
  { intros id d Hin. apply elem_of_list_fmap in Hin as ([id' z'] & E & Hin). injection E as -> ->. apply (proj1 (Hh id' z' Hin)). }
  pose proof (Puts_domain _ _ _ pathof _ _ _ _ Hp0 Ht) as Hdom.
  assert (Hb : forall q, is_Some (at_path (root_of r) q) <-> below pathof h q).
  { intros q. rewrite Hdom. split.
    - intros [->|(id & d & Hin & Hp)].
      + destruct h as [|[id z] h]; [done|]. exists id, z. split; [left|apply prefix_nil].
      + apply elem_of_list_fmap in Hin as ([id' z'] & E & Hin). injection E as -> ->. exists id', z'. done.
    - intros (id & z & Hin & Hp). right. exists id, (Some (DInt z)). split; [|done]. apply elem_of_list_fmap. by exists (id, z). }
  destruct r as [v|].
  2: { exfalso. destruct h as [|[id z] h]; [done|]. clear -Ht. rewrite fmap_cons in Ht. destruct h as [|e h _] using rev_ind.
       - cbn [Puts] in Ht. apply rbind_inv in Ht as ([st1 t1] & H & E). injection E as -> ->. apply Put_inv in H as (? & ? & _ & _ & E). discriminate E.
       - rewrite fmap_app in Ht. destruct e as [id' z']. change ((id, Some (DInt z)) :: ?a ++ ?b) with (((id, Some (DInt z)) :: a) ++ b) in Ht. 
         cbn [fmap list_fmap] in Ht. rewrite Puts_snoc in Ht. apply rbind_inv in Ht as ([st1 t1] & _ & H). apply Put_inv in H as (? & ? & _ & _ & E). discriminate E. }
  cbn [root_of] in Hb. unfold VSerialize. cbn [vt_tree].
  destruct (C41_stream (updateInnerVertex (NewPublicParams (C:=C) (F + 2) α) rnd order) F id2path v ord (fun data => match data with Some (DInt _) | Some (DKey _) | None => [] end)) as (recs & H1 & H2 & H3).
  - by eexists _, _, _.
  - done.
  - intros q u Hu. destruct (proj1 (Hb q) ltac:(eauto)) as (id & z & Hin & [s Hs]). destruct (Hh id z Hin) as [_ Hlen]. rewrite Hs in Hlen.
    pose proof (path_key_prefix_length q s). cbv beta. destruct (vdata u) as [[]|]; cbn [length]; lia.
  - assert (Hnil : forall rb, rb ∈ recs -> snd rb = []).
    { intros [q b] Hin. apply H3 in Hin as (u & _ & ->). cbn. destruct (vdata u) as [[]|]; done. }
    eexists _, recs.*1. split; [reflexivity|]. split; [|split; [done|]].
    + rewrite H1. f_equal. rewrite <- list_fmap_compose. apply list_fmap_ext. intros k [q b] Hrb. apply elem_of_list_lookup_2, Hnil in Hrb. cbn in Hrb |- *. by subst b.
    + intros q. rewrite <- Hb. split.
      * intros Hq. apply elem_of_list_fmap in Hq as ([q' b] & -> & Hin). apply H3 in Hin as (u & Hu & _). cbn. eauto.
      * intros [u Hu]. apply elem_of_list_fmap. exists (q, match vdata u with Some (DInt _) | Some (DKey _) | None => [] end). split; [done|]. apply H3. eauto.
Qed.
(** Hence two trees over the same ids serialize to the same records, up to order, whatever was put. *)
Theorem C42_same_records (C : Curve) F α rnd order id2path h t ord F' α' rnd' order' h' t' ord' pathof :
  verkle_run (C:=C) F α rnd order id2path h t -> verkle_run (C:=C) F' α' rnd' order' id2path h' t' -> h <> [] ->
  (forall s l, ord s l ≡ₚ l) -> (forall s l, ord' s l ≡ₚ l) ->
  (forall id, (exists z, (id, z) ∈ h) <-> exists z, (id, z) ∈ h') ->
  (forall id z, (id, z) ∈ h -> id2path id = Ret (pathof id) /\ (Z.of_nat (String.length (path_key (pathof id))) + 12 < 2 ^ 31)%Z) ->
  exists out out' recs recs', VSerialize ord t = Ret out /\ VSerialize ord' t' = Ret out' /\
    read_stream out = Some recs /\ read_stream out' = Some recs' /\ recs ≡ₚ recs'.
Proof.
  intros H H' Hne Ho Ho' Hids Hh. assert (Hne' : h' <> []).
  { intros ->. destruct h as [|[id z] h]; [done|]. destruct (proj1 (Hids id)) as [z' Hz']; [exists z; left|]. by apply elem_of_nil in Hz'. }
  assert (Hh' : forall id z, (id, z) ∈ h' -> id2path id = Ret (pathof id) /\ (Z.of_nat (String.length (path_key (pathof id))) + 12 < 2 ^ 31)%Z).
  { intros id z Hin. destruct (proj2 (Hids id)) as [z' Hz']; [eauto|]. apply (Hh id z' Hz'). }
  destruct (C42_no_contents C F α rnd order id2path pathof h t ord H Hne Ho Hh) as (out & qs & H1 & H2 & H3 & H4).
  destruct (C42_no_contents C F' α' rnd' order' id2path pathof h' t' ord' H' Hne' Ho' Hh') as (out' & qs' & H1' & H2' & H3' & H4').
  eexists _, _, _, _. split; [exact H1|]. split; [exact H1'|]. split; [exact H2|]. split; [exact H2'|]. apply fmap_Permutation.
  apply NoDup_Permutation; [done..|]. intros q. rewrite H4, H4'. split; intros (id & z & Hin & Hp).
  - destruct (proj1 (Hids id)) as [z' Hz']; [eauto|]. by exists id, z'.
  - destruct (proj2 (Hids id)) as [z' Hz']; [eauto|]. by exists id, z'.
Qed.

(** ** C43 *)
Theorem C43_round_trip (C : Curve) (v : Vertex C) od ov :
  od ≡ₚ map_to_list (v_digests v) -> ov ≡ₚ map_to_list (v_values v) ->
  (forall k, is_Some (v_digests v !! k) -> (Z.of_nat k < 65536)%Z) -> (forall k, is_Some (v_values v !! k) -> (Z.of_nat k < 65536)%Z) ->
  FromBytes (Vertex_Bytes od ov v) = Ret v.
Proof. apply FromBytes_Bytes. Qed.

(** ** C45: sums *)
Theorem C45_sums (C : Curve) F α rnd order id2path pathof n h t q :
  fixed_paths F id2path pathof n h -> verkle_run (C:=C) F α rnd order id2path h t ->
  below pathof h q -> (length q < n)%nat ->
  exists w : Vertex C, stored (vs_db (vt_state t)) (path_key q) w /\
    v_sum w = zr (total F (n - length q) (fun p => latest pathof h (q ++ p))) /\
    forall i, (below pathof h (q ++ [i]) -> v_values w !! i = Some (zr (total F (n - length q - 1) (fun p => latest pathof h (q ++ i :: p))))) /\
              (~ below pathof h (q ++ [i]) -> v_values w !! i = None).
Proof.
  intros [HF Hg] [Ho [db0 Ht]] Hb Hq. destruct (verkle_at F α rnd order id2path pathof HF Ho n h db0 t q Hg Ht Hb Hq) as (v & u & Hv & Hu & _ & w & Hw & (W1 & W2 & _) & Hc).
  exists w. split; [done|]. split; [rewrite W1; do 2 f_equal; lia|]. intros i. rewrite W2. specialize (Hc i). destruct (has_child u i).
  - split; [done|]. intros Hn. destruct Hn. by apply Hc.
  - split; [|done]. intros Hb'. apply Hc in Hb'. done.
Qed.
(** The root holds the sum of all current liabilities. *)
Corollary C45_root_sum (C : Curve) F α rnd order id2path pathof n h t :
  fixed_paths F id2path pathof n h -> verkle_run (C:=C) F α rnd order id2path h t -> h <> [] -> (0 < n)%nat ->
  exists w : Vertex C, stored (vs_db (vt_state t)) "" w /\ v_sum w = zr (total F n (latest pathof h)).
Proof.
  intros Hf Hr Hne Hn. destruct (C45_sums C F α rnd order id2path pathof n h t [] Hf Hr) as (w & Hw & Hs & _).
  - destruct h as [|[id z] h]; [done|]. exists id, z. split; [left|apply prefix_nil].
  - done.
  - exists w. split; [done|]. cbn [length app] in Hs. rewrite Nat.sub_0_r in Hs. done.
Qed.

(** ** C46: digests *)
Theorem C46_digests (C : Curve) F α rnd order id2path pathof n h t q :
  fixed_paths F id2path pathof n h -> verkle_run (C:=C) F α rnd order id2path h t ->
  below pathof h q -> (length q + 1 < n)%nat ->
  exists w : Vertex C, stored (vs_db (vt_state t)) (path_key q) w /\
    (forall i, (below pathof h (q ++ [i]) -> exists u : Vertex C, stored (vs_db (vt_state t)) (path_key (q ++ [i])) u /\
                  exists d, Vertex_Digest u = Ret d /\ v_digests w !! i = Some d) /\
               (~ below pathof h (q ++ [i]) -> v_digests w !! i = None)) /\
    exists W, v_W w = Some W /\ Commit (NewPublicParams (F + 2) α) (digests_vec F w) = Ret W.
Proof.
  intros [HF Hg] [Ho [db0 Ht]] Hb Hq. destruct (verkle_at F α rnd order id2path pathof HF Ho n h db0 t q Hg Ht Hb ltac:(lia)) as (v & u & Hv & Hu & _ & w & Hw & (_ & _ & W3) & Hc).
  exists w. split; [done|]. destruct (n - length q - 1)%nat as [|k] eqn:E; [lia|]. destruct W3 as (D1 & _ & D2). split; [|exact D2].
  intros i. specialize (Hc i). specialize (D1 i). destruct (has_child u i).
  - split; [|intros Hn; destruct Hn; by apply Hc]. intros _. destruct D1 as (c & Hcs & Hd). exists c. split; [done|]. exists (vertex_hash c). split; [apply Vertex_Digest_spec|done].
  - split; [|done]. intros Hb'. apply Hc in Hb'. done.
Qed.
Theorem C46_bottom (C : Curve) F α rnd order id2path pathof n h t q :
  fixed_paths F id2path pathof n h -> verkle_run (C:=C) F α rnd order id2path h t ->
  below pathof h q -> (length q + 1 = n)%nat ->
  exists w : Vertex C, stored (vs_db (vt_state t)) (path_key q) w /\ v_digests w = ∅ /\ v_W w = None.
Proof.
  intros [HF Hg] [Ho [db0 Ht]] Hb Hq. destruct (verkle_at F α rnd order id2path pathof HF Ho n h db0 t q Hg Ht Hb ltac:(lia)) as (v & u & Hv & Hu & _ & w & Hw & (_ & _ & W3) & Hc).
  exists w. split; [done|]. replace (n - length q - 1)%nat with 0%nat in W3 by lia. destruct W3 as (D1 & D2 & _). done.
Qed.

(** ** C47: value commitments *)
Theorem C47_inner (C : Curve) F α rnd order id2path pathof n h t q :
  fixed_paths F id2path pathof n h -> verkle_run (C:=C) F α rnd order id2path h t ->
  below pathof h q -> (length q + 1 < n)%nat ->
  exists w : Vertex C, stored (vs_db (vt_state t)) (path_key q) w /\ Commit (NewPublicParams (F + 2) α) (values_vec F w) = Ret (v_V w).
Proof.
  intros [HF Hg] [Ho [db0 Ht]] Hb Hq. destruct (verkle_at F α rnd order id2path pathof HF Ho n h db0 t q Hg Ht Hb ltac:(lia)) as (v & u & Hv & Hu & _ & w & Hw & (_ & _ & W3) & Hc).
  exists w. split; [done|]. destruct (n - length q - 1)%nat as [|k] eqn:E; [lia|]. apply W3.
Qed.
(** A vertex directly above liabilities through which exactly one Put went *)
Theorem C47_bottom_once (C : Curve) F α rnd order id2path pathof n h t q :
  fixed_paths F id2path pathof n h -> verkle_run (C:=C) F α rnd order id2path h t ->
  length (filter (fun e => q `prefix_of` pathof (fst e)) h) = 1%nat -> (length q + 1 = n)%nat ->
  exists w : Vertex C, stored (vs_db (vt_state t)) (path_key q) w /\ Commit (NewPublicParams (F + 2) α) (values_vec F w) = Ret (v_V w).
Proof.
  intros [HF Hg] [Ho [db0 Ht]] Hone Hq. change (writes pathof h q = 1%nat) in Hone. assert (Hb : below pathof h q) by (apply (proj1 (writes_below pathof h q)); rewrite Hone; done).
  destruct (verkle_at F α rnd order id2path pathof HF Ho n h db0 t q Hg Ht Hb ltac:(lia)) as (v & u & Hv & Hu & _ & w & Hw & (_ & _ & W3) & Hc).
  exists w. split; [done|]. replace (n - length q - 1)%nat with 0%nat in W3 by lia. apply W3. done.
Qed.

(** ** C48, C49: what one more Put does to a vertex *)
(** The vector of values changes by the change of the liability, at the index of the child and at the sum. *)
Definition old_liability (pathof : string -> path) (h : list (string * Z)) (id : string) : Z := default 0%Z (latest pathof h (pathof id)).
Lemma commit_values {C : Curve} F α (w : Vertex C) : Commit (NewPublicParams (C:=C) (F + 2) α) (values_vec F w) = Ret (commitment (C:=C) (F + 2) α (values_vec F w)).
Proof. apply commit_spec; [apply values_vec_length|lia]. Qed.

Lemma step_vec {C : Curve} (F : nat) (α : Zr) (i : nat) (w w' : Vertex C) (Δ' : Zr) : (i < F)%nat -> v_bf w' = v_bf w -> v_sum w' = v_sum w + Δ' -> default 0 (v_values w' !! i) = default 0 (v_values w !! i) + Δ' ->
  (forall j, j <> i -> v_values w' !! j = v_values w !! j) ->
  commitment (C:=C) (F + 2) α (values_vec F w') = gadd (commitment (F + 2) α (values_vec F w)) (gmul (Δ' * (α ^ (i + 1) + α ^ (F + 1))) (gen1 C)).
Proof.
  intros Hi E1 E2 E3 E4.
  assert (E : values_vec F w' = <[F := v_sum w + Δ']> (<[i := default 0 (v_values w !! i) + Δ']> (values_vec F w))).
  { apply list_eq. intros j. unfold values_vec. rewrite E1, E2.
    assert (HlenF : length ((fun j0 : nat => default 0 (v_values w !! j0)) <$> seq 0 F) = F) by (by rewrite fmap_length, seq_length).
    assert (HlenF' : length ((fun j0 : nat => default 0 (v_values w' !! j0)) <$> seq 0 F) = F) by (by rewrite fmap_length, seq_length).
    destruct (decide (j = F)) as [->|HjF].
    - rewrite list_lookup_insert by (rewrite insert_length, app_length, HlenF; cbn; lia). rewrite lookup_app_r by lia. rewrite HlenF', Nat.sub_diag. done.
    - rewrite list_lookup_insert_ne by done. destruct (decide (j = i)) as [->|Hj].
      + rewrite list_lookup_insert by (rewrite app_length, HlenF; lia). rewrite lookup_app_l by lia. rewrite list_lookup_fmap, lookup_seq_lt by done. cbn. by rewrite E3.
      + rewrite list_lookup_insert_ne by done. destruct (decide (j < F)%nat).
        * rewrite !lookup_app_l by lia. rewrite !list_lookup_fmap, lookup_seq_lt by done. cbn. by rewrite E4.
        * rewrite !lookup_app_r by lia. rewrite HlenF, HlenF'. destruct (j - F)%nat eqn:En; [lia|]. done. }
  assert (Hnth : forall k, (k < F + 2)%nat -> nth k (pows α 1 (F + 2)) 0 = α ^ (k + 1)).
  { intros k Hk. unfold pows. rewrite nth_lookup, list_lookup_fmap, lookup_seq_lt by done. cbn. rewrite Nat.add_1_r. done. }
  unfold commitment. rewrite E. rewrite !dot_insert; rewrite ?insert_length, ?values_vec_length, ?pows_length; try lia.
  rewrite !Hnth by lia.
  replace (nth F (<[i := _]> (values_vec F w)) 0) with (v_sum w).
  2: { rewrite nth_lookup, list_lookup_insert_ne by lia. unfold values_vec. rewrite lookup_app_r by (rewrite fmap_length, seq_length; lia). rewrite fmap_length, seq_length, Nat.sub_diag. done. }
  replace (nth i (values_vec F w) 0) with (default 0 (v_values w !! i)) by (unfold values_vec; by rewrite nth_fmap_seq).
  generalize (dot (values_vec F w) (pows α 1 (F + 2))), (α ^ (i + 1)), (α ^ (F + 1)), (v_sum w), (default 0 (v_values w !! i)). intros d a b c e. module.
Qed.

Section Step.
  Context {C : Curve} (F : nat) (α : Zr) (rnd : nat -> Zr) (order : nat -> bool -> gmap nat Zr -> list (nat * Zr)) (id2path : string -> res path) (pathof : string -> path) (n : nat).
  Variable (h : list (string * Z)) (id : string) (z : Z) (t t' : VTree) (db0 : gmap string bytes) (r : path) (i : nat) (s : path).
  Hypothesis Hf : fixed_paths F id2path pathof n (h ++ [(id, z)]).
  Hypothesis Ho : forall k b m, order k b m ≡ₚ map_to_list m.
  Hypothesis Ht : VPuts (C:=C) F α rnd order id2path (NewVerkleTree db0) h = Ret t.
  Hypothesis Hp : pathof id = r ++ i :: s.
  Hypothesis Hb : below pathof h r.
  Hypothesis Ht' : VPut (NewPublicParams (C:=C) (F + 2) α) rnd order F id2path t id z = Ret t'.
  Notation Δ := (zr (z - old_liability pathof h id)).

  Lemma step_run : VPuts (C:=C) F α rnd order id2path (NewVerkleTree db0) (h ++ [(id, z)]) = Ret t'.
  Proof. rewrite VPuts_app, Ht. cbn [rbind VPuts]. rewrite Ht'. done. Qed.

  Lemma step_values : exists w w' : Vertex C, stored (vs_db (vt_state t)) (path_key r) w /\ stored (vs_db (vt_state t')) (path_key r) w' /\
    v_bf w' = v_bf w /\ v_sum w' = v_sum w + Δ /\ default 0 (v_values w' !! i) = default 0 (v_values w !! i) + Δ /\ is_Some (v_values w' !! i) /\
    (forall j, j <> i -> v_values w' !! j = v_values w !! j) /\
    (s = [] -> v_V w' = bottom_V α w i z) /\ (forall j, is_Some (v_values w !! j) -> (j < F)%nat) /\
    (s <> [] -> Commit (NewPublicParams (F + 2) α) (values_vec F w) = Ret (v_V w) /\ Commit (NewPublicParams (F + 2) α) (values_vec F w') = Ret (v_V w')).
  Proof.
    destruct Hf as [HF Hg]. destruct (Hg id z) as (_ & Hl & Hlt); [apply elem_of_app; right; left|].
    assert (Hi : (i < F)%nat) by (rewrite Hp, Forall_app, Forall_cons in Hlt; tauto).
    assert (Hg0 : good_paths F id2path pathof n h) by (intros id' z' Hin; apply (Hg id' z'); apply elem_of_app; by left).
    assert (Hb' : below pathof (h ++ [(id, z)]) r) by (apply below_snoc; by left).
    assert (Hr : (length r < n)%nat) by (rewrite Hp, app_length in Hl; cbn in Hl; lia).
    assert (Hs : (n - length r - 1 = length s)%nat) by (rewrite Hp, app_length in Hl; cbn in Hl; lia).
    destruct (verkle_at F α rnd order id2path pathof HF Ho n h db0 t r Hg0 Ht Hb Hr) as (v & u & Hv & Hu & Hinv & w & Hw & (W1 & W2 & W3) & Hc).
    destruct (verkle_at F α rnd order id2path pathof HF Ho n _ db0 t' r Hg step_run Hb' Hr) as (v' & u' & Hv' & Hu' & _ & w' & Hw' & (W1' & W2' & W3') & Hc').
    destruct (verkle_step F α rnd order id2path pathof HF Ho n h db0 id z t t' r i s w Hg Ht step_run Hp Hb Hw) as (w'' & Hw'' & B1 & B2).
    rewrite (stored_fun _ _ _ _ Hw'' Hw') in B1, B2. rewrite Hs in *.
    (* the liabilities *)
    assert (Hlat : forall q, latest pathof (h ++ [(id, z)]) (r ++ q) = if decide (i :: s = q) then Some z else latest pathof h (r ++ q)).
    { intros q. rewrite latest_snoc. destruct (decide (pathof id = r ++ q)) as [E|E]; destruct (decide (i :: s = q)) as [E'|E']; try done.
      - rewrite Hp in E. apply app_inv_head in E. done.
      - subst q. done. }
    assert (Hother : forall j p, j <> i -> latest pathof (h ++ [(id, z)]) (r ++ j :: p) = latest pathof h (r ++ j :: p)).
    { intros j p Hj. rewrite Hlat, decide_False by congruence. done. }
    assert (Htot : forall s' M M', (forall q, M' q = if decide (s' = q) then Some z else M q) -> Forall (fun k => k < F)%nat s' ->
      (total F (length s') M' = total F (length s') M + (z - default 0 (M s')))%Z).
    { clear. induction s' as [|k s' IH]; intros M M' HM Hall.
      - rewrite !total_0, HM, decide_True by done. cbn [default]. change (length []) with 0%nat. rewrite ?total_0. cbn. lia.
      - apply Forall_cons in Hall as [Hk Hall]. cbn [length]. rewrite (total_upd F (length s') M M' k Hk).
        + rewrite (IH (fun p => M (k :: p)) (fun p => M' (k :: p))); [lia| |done]. intros q. rewrite HM. destruct (decide (s' = q)) as [->|]; [by rewrite decide_True|rewrite decide_False; [done|congruence]].
        + intros j p Hj _. rewrite HM, decide_False by congruence. done. }
    assert (Hall : Forall (fun k => k < F)%nat (i :: s)) by (rewrite Hp, Forall_app in Hlt; tauto).
    assert (Hold : old_liability pathof h id = default 0%Z (latest pathof h (r ++ i :: s))) by (unfold old_liability; by rewrite Hp).
    assert (Hcb : forall j, j <> i -> has_child u' j = has_child u j).
    { intros j Hj. apply eq_bool_prop_intro. rewrite !Is_true_true, Hc, Hc', below_snoc, Hp. split; [intros [H|[k H]]; [done|]|tauto].
      rewrite <- app_assoc in H. apply app_inv_head in H. cbn in H. congruence. }
    assert (Hci : has_child u' i = true).
    { apply Hc', below_snoc. right. rewrite Hp. exists s. rewrite <- app_assoc. done. }
    exists w, w'. split; [done|]. split; [done|]. split; [done|]. split_and!.
    - rewrite W1, W1', <- zr_add, Hold. f_equal. exact (Htot (i :: s) (fun p => latest pathof h (r ++ p)) _ Hlat Hall).
    - rewrite W2, W2', Hci. cbn [default].
      rewrite (Htot s (fun p => latest pathof h (r ++ i :: p)) (fun p => latest pathof (h ++ [(id, z)]) (r ++ i :: p))).
      + rewrite zr_add, Hold. destruct (has_child u i) eqn:Ei; [done|]. cbn [default from_option]. unfold Datatypes.id. replace (total F (length s) (fun p => latest pathof h (r ++ i :: p))) with 0%Z; [done|]. symmetry. apply total_empty. intros p Hpl.
        assert (Hn : ~ below pathof h (r ++ [i])) by (rewrite <- Hc, Ei; done).
        apply latest_None. intros id' z' Hin E. apply Hn. exists id', z'. split; [done|]. rewrite E. exists p. rewrite <- app_assoc. done.
      + intros q. rewrite Hlat. destruct (decide (s = q)) as [->|]; [by rewrite decide_True|rewrite decide_False; [done|congruence]].
      + apply Forall_cons in Hall. tauto.
    - rewrite W2', Hci. eauto.
    - intros j Hj. rewrite W2, W2', Hcb by done. destruct (has_child u j); [|done]. do 2 f_equal. apply total_ext. intros p _. by apply Hother.
    - done.
    - intros j [x Hx]. rewrite W2 in Hx. destruct (has_child u j) eqn:Ej; [|done]. 
      destruct (n - length r)%nat as [|k] eqn:En; [lia|]. cbn [VInv] in Hinv. destruct Hinv as (_ & _ & _ & Hch & _). specialize (Hch j). unfold has_child in Ej. destruct (mget (vdesc u) j); [apply Hch|done].
    - intros Hsn. destruct s as [|k s']; [done|]. cbn [length] in *. split; [apply W3|apply W3'].
  Qed.

End Step.

(** C48: a Put through a vertex directly above liabilities that already exists.  Writing err(w) for the difference between the
    commitment V of the vertex and the commitment to its contents, the Put changes the error by
    (new sum - m_k) G_k - (new sum - old sum) G_F, where k is the number of populated children after the Put and m_k the
    old value at k.  G_k and G_F are elements of the public parameters. *)
Definition commitment_error {C : Curve} (F : nat) (α : Zr) (w : Vertex C) (e : G1 C) : Prop :=
  exists c, Commit (NewPublicParams (F + 2) α) (values_vec F w) = Ret c /\ v_V w = gadd c e.
Theorem C48_bottom_update (C : Curve) F α rnd order id2path pathof n h id z t t' r i :
  fixed_paths F id2path pathof n (h ++ [(id, z)]) -> verkle_run (C:=C) F α rnd order id2path h t ->
  VPut (NewPublicParams (C:=C) (F + 2) α) rnd order F id2path t id z = Ret t' ->
  pathof id = r ++ [i] -> below pathof h r ->
  exists (w w' : Vertex C) (e : G1 C) Gk GF,
    stored (vs_db (vt_state t)) (path_key r) w /\ stored (vs_db (vt_state t')) (path_key r) w' /\
    let k := size (v_values w') in
    pp_G1s (NewPublicParams (C:=C) (F + 2) α) !! k = Some Gk /\ pp_G1s (NewPublicParams (C:=C) (F + 2) α) !! F = Some GF /\
    commitment_error F α w e /\
    commitment_error F α w' (gadd e (gadd (gmul (v_sum w' - default 0 (v_values w !! k)) Gk) (gopp (gmul (v_sum w' - v_sum w) GF)))).
Proof.
  intros Hf [Ho [db0 Ht]] Ht' Hp Hb.
  destruct (step_values F α rnd order id2path pathof n h id z t t' db0 r i [] Hf Ho Ht Hp Hb Ht') as (w & w' & Hw & Hw' & E1 & E2 & E3 & E4 & E5 & E6 & E7 & _).
  specialize (E6 Logic.eq_refl). destruct Hf as [HF Hg]. destruct (Hg id z) as (_ & _ & Hlt); [apply elem_of_app; right; left|].
  assert (Hi : (i < F)%nat) by (rewrite Hp, Forall_app, Forall_cons in Hlt; tauto).
  assert (Hvals : <[i := zr z]> (v_values w) = v_values w').
  { apply map_eq. intros j. destruct (decide (j = i)) as [->|Hj]; [|by rewrite lookup_insert_ne, E5]. rewrite lookup_insert. destruct E4 as [x Hx]. rewrite Hx in *. f_equal.
    clear E6.
    destruct (verkle_at F α rnd order id2path pathof HF Ho n (h ++ [(id, z)]) db0 t' r Hg ltac:(by apply (step_run F α rnd order id2path h id z t)) ltac:(apply below_snoc; by left)) as (_ & u' & _ & _ & _ & w2 & Hw2 & (_ & W2 & _) & _).
    { destruct (Hg id z) as (_ & Hl & _); [apply elem_of_app; right; left|]. rewrite Hp, app_length in Hl. cbn in Hl. lia. }
    rewrite (stored_fun _ _ _ _ Hw2 Hw') in W2. specialize (W2 i). rewrite Hx in W2. destruct (has_child u' i); [|done]. injection W2 as W2.
    rewrite W2. replace (n - length r - 1)%nat with 0%nat.
    - rewrite total_0, latest_snoc, Hp, decide_True by done. done.
    - destruct (Hg id z) as (_ & Hl & _); [apply elem_of_app; right; left|]. rewrite Hp, app_length in Hl. cbn in Hl. lia. }
  assert (Hz : zr z = default 0 (v_values w !! i) + zr (z - old_liability pathof h id)) by (rewrite <- E3, <- Hvals, lookup_insert; done).
  assert (Hk : (size (v_values w') <= F)%nat).
  { apply size_bound. intros j Hj. rewrite <- Hvals in Hj. destruct (decide (j = i)) as [->|]; [done|]. rewrite lookup_insert_ne in Hj by done. auto. }
  set (Δ := zr (z - old_liability pathof h id)) in *.
  eexists w, w', (gadd (v_V w) (gopp (commitment (C:=C) (F + 2) α (values_vec F w)))), _, _. split; [done|]. split; [done|]. cbv zeta. split_and!.
  - apply pp_G1s_lookup_lo. lia.
  - apply pp_G1s_lookup_lo. lia.
  - exists (commitment (C:=C) (F + 2) α (values_vec F w)). split; [apply commit_values|].  generalize (v_V w), (commitment (C:=C) (F + 2) α (values_vec F w)). intros a b. module.
  - exists (commitment (C:=C) (F + 2) α (values_vec F w')). split; [apply commit_values|]. rewrite E6. unfold bottom_V. rewrite Hvals, (step_vec F α i w w' Δ Hi E1 E2 E3 E5), E2, Hz.
    generalize (v_V w), (commitment (C:=C) (F + 2) α (values_vec F w)). intros a b.
    generalize (size (v_values w')) as k. intros k. generalize (default 0 (v_values w !! k)), (default 0 (v_values w !! i)), (v_sum w), Δ. intros mk mi sw d.
    generalize (α ^ (i + 1)), (α ^ (k + 1)), (α ^ (F + 1)). intros ai ak aF.  module.
Qed.

(** Putting the same id twice, below a vertex that had nothing below it before *)
Lemma total_one F (M : path -> option Z) i x : (i < F)%nat -> M [i] = Some x -> (forall j, j <> i -> M [j] = None) -> total F 1 M = x.
Proof.
  intros Hi Hx Hn. rewrite (total_upd F 0 (fun _ => None) M i Hi).
  - rewrite (total_empty F 1) by done. rewrite !total_0, Hx. cbn. lia.
  - intros j p Hj Hp. destruct p; [|done]. by apply Hn.
Qed.
Theorem C48_same_id_twice (C : Curve) F α rnd order id2path pathof n h id z1 z2 t r i :
  fixed_paths F id2path pathof n (h ++ [(id, z1); (id, z2)]) -> verkle_run (C:=C) F α rnd order id2path (h ++ [(id, z1); (id, z2)]) t ->
  pathof id = r ++ [i] -> ~ below pathof h r ->
  exists w : Vertex C, stored (vs_db (vt_state t)) (path_key r) w /\ v_values w = {[i := zr z2]} /\ v_sum w = zr z2 /\
    (Commit (NewPublicParams (F + 2) α) (values_vec F w) = Ret (v_V w) <->
     (zr z2 - (if decide (i = 1%nat) then zr z1 else 0)) * α ^ 2 = (zr z2 - zr z1) * α ^ (F + 1)).
Proof.
  intros Hf [Ho [db0 Ht]] Hp Hnb. change [(id, z1); (id, z2)] with ([(id, z1)] ++ [(id, z2)]) in *. rewrite app_assoc in Hf, Ht. set (h1 := h ++ [(id, z1)]) in *.
  rewrite VPuts_app in Ht. apply rbind_inv in Ht as (t1 & Ht1 & Ht'). cbn [VPuts] in Ht'. apply rbind_inv in Ht' as (t2 & Ht2 & E). injection E as ->.
  assert (Hr1 : verkle_run (C:=C) F α rnd order id2path h1 t1) by (split; eauto).
  assert (Hf1 : fixed_paths F id2path pathof n h1) by (destruct Hf as [HF Hg]; split; [done|]; intros id' z' Hin; apply (Hg id' z'); apply elem_of_app; by left).
  assert (Hb1 : below pathof h1 r) by (apply below_snoc; right; rewrite Hp; by exists [i]).
  assert (Hin : (id, z2) ∈ h1 ++ [(id, z2)]) by (apply elem_of_app; right; left).
  destruct (proj2 Hf id z2 Hin) as (_ & Hl & Hlt). assert (Hi : (i < F)%nat) by (rewrite Hp, Forall_app, Forall_cons in Hlt; tauto). rewrite Hp, app_length in Hl. cbn in Hl.
  destruct (C48_bottom_update C F α rnd order id2path pathof n h1 id z2 t1 t r i Hf Hr1 Ht2 Hp Hb1) as (w & w' & e & Gk & GF & Hw & Hw' & HGk & HGF & He & He').
  exists w'. split; [done|].
  (* the values below r before and after *)
  assert (Hlat : forall z h', h' = h \/ h' = h1 -> forall j p, latest pathof (h' ++ [(id, z)]) (r ++ j :: p) = if decide (j :: p = [i]) then Some z else None).
  { intros z h' Hh' j p. rewrite latest_snoc, Hp. destruct (decide (j :: p = [i])) as [E|E]; [rewrite E; by rewrite decide_True|]. rewrite decide_False by (intros E'; apply app_inv_head in E'; congruence).
    assert (Hnone : latest pathof h (r ++ j :: p) = None) by (apply latest_None; intros id' a Hin' E'; apply Hnb; exists id', a; split; [done|]; rewrite E'; by eexists).
    destruct Hh' as [->| ->]; [done|]. unfold h1. rewrite latest_snoc, Hp. rewrite decide_False by (intros E'; apply app_inv_head in E'; congruence). done. }
  assert (Hbel : forall z h', h' = h \/ h' = h1 -> forall j, below pathof (h' ++ [(id, z)]) (r ++ [j]) <-> j = i).
  { assert (Hpre : forall j, r ++ [j] `prefix_of` r ++ [i] <-> j = i).
    { intros j. split; [intros [k Hk]; rewrite <- app_assoc in Hk; apply app_inv_head in Hk; cbn in Hk; congruence|intros ->; done]. }
    assert (Hnb' : forall j, ~ below pathof h (r ++ [j])) by (intros j (id' & a & Hin' & [k Hk]); apply Hnb; exists id', a; split; [done|]; rewrite Hk, <- app_assoc; by eexists).
    intros z h' Hh' j. rewrite below_snoc, Hp, Hpre. destruct Hh' as [->| ->]; [specialize (Hnb' j); tauto|]. unfold h1. rewrite below_snoc, Hp, Hpre. specialize (Hnb' j). tauto. }
  assert (Hspec : forall z h' t' (x : Vertex C), h' = h \/ h' = h1 -> fixed_paths F id2path pathof n (h' ++ [(id, z)]) -> verkle_run (C:=C) F α rnd order id2path (h' ++ [(id, z)]) t' ->
     stored (vs_db (vt_state t')) (path_key r) x -> v_values x = {[i := zr z]} /\ v_sum x = zr z).
  { intros z h' t' x Hh' Hf' Hr' Hx.
    destruct (C45_sums C F α rnd order id2path pathof n _ t' r Hf' Hr') as (x' & Hx' & Hs & Hv); [apply below_snoc; right; rewrite Hp; by exists [i]|lia|].
    rewrite (stored_fun _ _ _ _ Hx' Hx) in Hs, Hv. replace (n - length r)%nat with 1%nat in Hs by lia. replace (n - length r - 1)%nat with 0%nat in Hv by lia. split.
    - apply map_eq. intros j. destruct (Hv j) as [Hv1 Hv2]. destruct (decide (j = i)) as [->|Hj].
      + rewrite lookup_singleton, Hv1 by (by apply Hbel). rewrite total_0, (Hlat z h' Hh'), decide_True by done. done.
      + rewrite lookup_singleton_ne by done. apply Hv2. rewrite Hbel by done. done.
    - rewrite Hs. f_equal. apply (total_one F _ i z Hi).
      + rewrite (Hlat z h' Hh'), decide_True by done. done.
      + intros j Hj. rewrite (Hlat z h' Hh'), decide_False by congruence. done. }
  destruct (Hspec z1 h t1 w (or_introl Logic.eq_refl) Hf1 Hr1 Hw) as [Hv1 Hs1].
  destruct (Hspec z2 h1 t w' (or_intror Logic.eq_refl) Hf) as [Hv2 Hs2]; [|done|].
  { split; [done|]. exists db0. rewrite VPuts_app, Ht1. cbn [rbind VPuts]. rewrite Ht2. done. }
  split; [done|]. split; [done|].
  (* the first commitment is right *)
  destruct (C47_bottom_once C F α rnd order id2path pathof n h1 t1 r Hf1 Hr1) as (w0 & Hw0 & Hc0); [|lia|].
  { change (writes pathof h1 r = 1%nat). unfold h1. rewrite writes_snoc. unfold upd_count. rewrite decide_True by (rewrite Hp; by exists [i]).
    destruct (decide (writes pathof h r = 0%nat)) as [->|Hne]; [done|]. destruct Hnb. apply writes_below. lia. }
  rewrite (stored_fun _ _ _ _ Hw0 Hw) in Hc0. destruct He as (c & Hc & He). rewrite Hc in Hc0. injection Hc0 as Hc0.
  assert (He0 : e = gzero) by (apply (gadd_cancel_l c); rewrite <- He, <- Hc0; module). subst e. clear He Hc0 c Hc.
  destruct He' as (c & Hc & He'). cbv zeta in *. rewrite Hc, He'. rewrite Hv2, map_size_singleton in *. 
  assert (EGk : Gk = gmul (α ^ 2) (gen1 C)) by (rewrite pp_G1s_lookup_lo in HGk by lia; change (1 + 1)%nat with 2%nat in HGk; congruence).
  assert (EGF : GF = gmul (α ^ (F + 1)) (gen1 C)) by (rewrite pp_G1s_lookup_lo in HGF by lia; congruence). rewrite EGk, EGF.
  rewrite Hv1, Hs1, Hs2. replace (default 0 ({[i := zr z1]} !! 1%nat)) with (if decide (i = 1%nat) then zr z1 else 0).
  2: { destruct (decide (i = 1%nat)) as [->|]; [by rewrite lookup_singleton|by rewrite lookup_singleton_ne]. }
  generalize (if decide (i = 1%nat) then zr z1 else 0). intros m. generalize (zr z2), (zr z1), (α ^ 2), (α ^ (F + 1)). intros a b x y.
  transitivity (gmul ((a - m) * x - (a - b) * y) (gen1 C) = gzero).
  - split.
    + intros [= E]. apply (gadd_cancel_l c). symmetry in E. etransitivity; [|etransitivity; [exact E|module]]. module.
    + intros E. f_equal. transitivity (gadd c (gmul ((a - m) * x - (a - b) * y) (gen1 C))); [rewrite E; module|module].
  - split.
    + intros E. apply gmul_eq_0 in E as [E|E]; [|by apply gen1_neq_0 in E]. by apply zsub_eq_0.
    + intros ->. replace ((a - b) * y - (a - b) * y) with 0 by ring. apply gmul_0.
Qed.
(** With at least two children per vertex and different liabilities, at most F+1 trapdoors leave a right commitment. *)
Lemma peval_app cs ds x : peval (cs ++ ds) x = peval cs x + x ^ (length cs) * peval ds x.
Proof. induction cs as [|c cs IH]; cbn [app length peval]; [cbn; ring|]. rewrite IH. cbn [zpow]. ring. Qed.
Lemma peval_zeros k x : peval (replicate k 0) x = 0.
Proof. induction k as [|k IH]; [done|]. cbn [replicate peval]. rewrite IH. ring. Qed.
Theorem C48_few_trapdoors (C : Curve) F id2path pathof n h id z1 z2 r i αs :
  (2 <= F)%nat -> fixed_paths F id2path pathof n (h ++ [(id, z1); (id, z2)]) ->
  pathof id = r ++ [i] -> ~ below pathof h r -> zr z1 <> zr z2 -> NoDup αs ->
  (forall α, α ∈ αs -> exists rnd order t (w : Vertex C), verkle_run (C:=C) F α rnd order id2path (h ++ [(id, z1); (id, z2)]) t /\
     stored (vs_db (vt_state t)) (path_key r) w /\ Commit (NewPublicParams (F + 2) α) (values_vec F w) = Ret (v_V w)) ->
  (length αs <= F + 1)%nat.
Proof.
  intros HF Hf Hp Hnb Hz Hnd Hall. destruct (decide (length αs <= F + 1)%nat) as [|Hgt]; [done|]. exfalso.
  set (m1 := if decide (i = 1%nat) then zr z1 else 0).
  set (cs := [0; 0; zr z2 - m1] ++ replicate (F - 2) 0 ++ [zr z1 - zr z2]).
  assert (Hlen : length cs = (F + 2)%nat) by (unfold cs; rewrite !app_length, replicate_length; cbn; lia).
  assert (H : Forall (fun c => c = 0) cs).
  { apply (poly_roots cs (take (F + 2) αs)).
    - rewrite take_length. lia.
    - apply (NoDup_app (take (F + 2) αs) (drop (F + 2) αs)). rewrite take_drop. done.
    - apply Forall_forall. intros α Hα. assert (Hα' : α ∈ αs) by (rewrite <- (take_drop (F + 2) αs); apply elem_of_app; by left).
      destruct (Hall α Hα') as (rnd & order & t & w & Hrun & Hw & Hc).
      destruct (C48_same_id_twice C F α rnd order id2path pathof n h id z1 z2 t r i Hf Hrun Hp Hnb) as (w' & Hw' & _ & _ & Hiff). rewrite (stored_fun _ _ _ _ Hw' Hw) in Hiff. apply Hiff in Hc.
      unfold cs. rewrite !peval_app, peval_zeros, replicate_length. cbn [length peval]. fold m1 in Hc.
      transitivity ((zr z2 - m1) * α ^ 2 - (zr z2 - zr z1) * (α ^ 3 * α ^ (F - 2))); [cbn [zpow]; ring|].
      rewrite <- zpow_add. replace (3 + (F - 2))%nat with (F + 1)%nat by lia. rewrite Hc. ring. }
  unfold cs in H. rewrite !Forall_app in H. destruct H as (_ & _ & H). apply Forall_cons in H as [H _]. apply zsub_eq_0 in H. done.
Qed.

(** ** C49: the blinding factor is kept *)
Theorem C49_no_refresh (C : Curve) F α rnd order id2path pathof n h id z t t' r i s :
  fixed_paths F id2path pathof n (h ++ [(id, z)]) -> verkle_run (C:=C) F α rnd order id2path h t ->
  VPut (NewPublicParams (C:=C) (F + 2) α) rnd order F id2path t id z = Ret t' ->
  pathof id = r ++ i :: s -> below pathof h r ->
  exists w w' : Vertex C, stored (vs_db (vt_state t)) (path_key r) w /\ stored (vs_db (vt_state t')) (path_key r) w' /\ v_bf w' = v_bf w /\
    (s <> [] -> exists Gi GF, pp_G1s (NewPublicParams (C:=C) (F + 2) α) !! i = Some Gi /\ pp_G1s (NewPublicParams (C:=C) (F + 2) α) !! F = Some GF /\
       gadd (v_V w') (gopp (v_V w)) = gmul (zr (z - old_liability pathof h id)) (gadd Gi GF)).
Proof.
  intros Hf [Ho [db0 Ht]] Ht' Hp Hb.
  destruct (step_values F α rnd order id2path pathof n h id z t t' db0 r i s Hf Ho Ht Hp Hb Ht') as (w & w' & Hw & Hw' & E1 & E2 & E3 & E4 & E5 & _ & _ & E8).
  exists w, w'. split; [done|]. split; [done|]. split; [done|]. intros Hs. destruct (E8 Hs) as [Hc Hc'].
  destruct Hf as [HF Hg]. destruct (Hg id z) as (_ & _ & Hlt); [apply elem_of_app; right; left|].
  assert (Hi : (i < F)%nat) by (rewrite Hp, Forall_app, Forall_cons in Hlt; tauto).
  eexists _, _. split; [apply pp_G1s_lookup_lo; lia|]. split; [apply pp_G1s_lookup_lo; lia|].
  rewrite commit_values in Hc, Hc'. injection Hc as <-. injection Hc' as <-. rewrite (step_vec F α i w w' _ Hi E1 E2 E3 E5).
  generalize (commitment (C:=C) (F + 2) α (values_vec F w)), (α ^ (i + 1)), (α ^ (F + 1)), (zr (z - old_liability pathof h id)). intros c a b d. module.
Qed.

(** ** The hypotheses can be met: a tree of fanout 3 over the concrete instance, after the Puts of [ex_history] *)
Lemma ex_fixed (h : list (string * Z)) : fixed_paths 3 ex_id2path ex_path 2 h.
Proof. split; [lia|]. intros id z _. split; [done|]. unfold ex_path. repeat destruct (decide _); split; try done; repeat constructor; lia. Qed.
Definition ex_order (k : nat) (b : bool) (m : gmap nat Zr) : list (nat * Zr) := reverse (map_to_list m).
Lemma ex_order_perm k b m : ex_order k b m ≡ₚ map_to_list m.
Proof. apply reverse_Permutation. Qed.
Definition ex_rnd (k : nat) : Zr := zr (Z.of_nat k + 100).
Lemma ex_verkle_run (h : list (string * Z)) α : exists t, verkle_run (C:=toy) 3 α ex_rnd ex_order ex_id2path h t.
Proof.
  destruct (C45_runs_succeed toy 3 α ex_rnd ex_order ex_id2path ex_path 2 h ∅ (ex_fixed h) ex_order_perm) as [t Ht]. exists t. split; [apply ex_order_perm|eauto].
Qed.
Lemma ex_below h q id z : (id, z) ∈ h -> q `prefix_of` ex_path id -> below ex_path h q.
Proof. intros. by exists id, z. Qed.
Example C42_nonvacuous : exists t t', verkle_run (C:=toy) 3 (zr 5) ex_rnd ex_order ex_id2path ex_history t /\
  verkle_run (C:=toy) 3 (zr 6) ex_rnd ex_order ex_id2path [("c", 100%Z); ("a", 2%Z); ("b", 3%Z)] t' /\ ex_history <> [] /\
  (forall id, (exists z, (id, z) ∈ ex_history) <-> exists z, (id, z) ∈ [("c", 100%Z); ("a", 2%Z); ("b", 3%Z)]) /\
  (forall id z, (id, z) ∈ ex_history -> ex_id2path id = Ret (ex_path id) /\ (Z.of_nat (String.length (path_key (ex_path id))) + 12 < 2 ^ 31)%Z).
Proof.
  destruct (ex_verkle_run ex_history (zr 5)) as [t Ht]. destruct (ex_verkle_run [("c", 100%Z); ("a", 2%Z); ("b", 3%Z)] (zr 6)) as [t' Ht'].
  exists t, t'. split; [done|]. split; [done|]. split; [done|]. split.
  - intros id. unfold ex_history. split; intros [z Hz]; repeat (apply elem_of_cons in Hz as [[= -> ->]|Hz]); try (by apply elem_of_nil in Hz).
    all: eexists; rewrite !elem_of_cons, elem_of_nil; eauto 10.
  - intros id z Hin. split; [done|]. unfold ex_history in Hin. repeat (apply elem_of_cons in Hin as [[= -> ->]|Hin]); try (by apply elem_of_nil in Hin); vm_compute; done.
Qed.
Example C43_nonvacuous : let v := MkVertex (C:=toy) (zr 3) {[0%nat := zr 1; 300%nat := zr 2]} {[7%nat := zr 9]} (zr 3) (zr 11) None in
  (forall k, is_Some (v_digests v !! k) -> (Z.of_nat k < 65536)%Z) /\ (forall k, is_Some (v_values v !! k) -> (Z.of_nat k < 65536)%Z).
Proof.
  cbv zeta. cbn [v_digests v_values]. split; intros k [x Hk].
  - apply lookup_singleton_Some in Hk as [<- _]. lia.
  - apply lookup_insert_Some in Hk as [[<- _]|[_ Hk]]; [lia|]. apply lookup_singleton_Some in Hk as [<- _]. 
    apply Z.ltb_lt. vm_compute. done.
Qed.
(** C45-C47: the root, the vertex [0] (bottom, several Puts) and the vertex [2] (bottom, one Put) *)
Example C45_nonvacuous : exists t, verkle_run (C:=toy) 3 (zr 5) ex_rnd ex_order ex_id2path ex_history t /\ fixed_paths 3 ex_id2path ex_path 2 ex_history /\
  below ex_path ex_history [] /\ below ex_path ex_history [0%nat] /\ ~ below ex_path ex_history [1%nat] /\
  total 3 2 (latest ex_path ex_history) = 14%Z /\ total 3 1 (fun p => latest ex_path ex_history ([0%nat] ++ p)) = 13%Z.
Proof.
  destruct (ex_verkle_run ex_history (zr 5)) as [t Ht]. exists t. split; [done|]. split; [apply ex_fixed|].
  split; [apply (ex_below _ _ "a" 5); [left|by eexists]|]. split; [apply (ex_below _ _ "a" 5); [left|by exists [1%nat]]|]. split; [|split; vm_compute; done].
  intros (id & z & _ & [k Hk]). unfold ex_path in Hk. repeat destruct (decide _); discriminate Hk.
Qed.
Example C46_nonvacuous : exists t, verkle_run (C:=toy) 3 (zr 5) ex_rnd ex_order ex_id2path ex_history t /\ fixed_paths 3 ex_id2path ex_path 2 ex_history /\
  (below ex_path ex_history [] /\ (length (@nil nat) + 1 < 2)%nat) /\ (below ex_path ex_history [0%nat] /\ (length [0%nat] + 1 = 2)%nat).
Proof.
  destruct C45_nonvacuous as (t & H1 & H2 & H3 & H4 & _). exists t. split; [done|]. split; [done|]. split; split; done || (cbn; lia).
Qed.
Example C47_nonvacuous : exists t, verkle_run (C:=toy) 3 (zr 5) ex_rnd ex_order ex_id2path ex_history t /\ fixed_paths 3 ex_id2path ex_path 2 ex_history /\
  (below ex_path ex_history [] /\ (length (@nil nat) + 1 < 2)%nat) /\ length (filter (fun e => [2%nat] `prefix_of` ex_path (fst e)) ex_history) = 1%nat.
Proof. destruct C45_nonvacuous as (t & H1 & H2 & H3 & H4 & _). exists t. split; [done|]. split; [done|]. split; [split; [done|cbn; lia]|]. vm_compute. done. Qed.
(** C48, C49: a fourth Put, of "b", through the existing vertices at [] and [0]; and "c" put twice.  With trapdoor 5 the
    second Put of "c" leaves a wrong commitment. *)
Example C48_nonvacuous : exists t t', verkle_run (C:=toy) 3 (zr 5) ex_rnd ex_order ex_id2path ex_history t /\
  fixed_paths 3 ex_id2path ex_path 2 (ex_history ++ [("b", 9%Z)]) /\
  VPut (NewPublicParams (C:=toy) 5 (zr 5)) ex_rnd ex_order 3 ex_id2path t "b" 9 = Ret t' /\ ex_path "b" = [0%nat] ++ [2%nat] /\ below ex_path ex_history [0%nat].
Proof.
  destruct (ex_verkle_run ex_history (zr 5)) as [t [Ho [db0 Ht]]].
  destruct (C45_runs_succeed toy 3 (zr 5) ex_rnd ex_order ex_id2path ex_path 2 (ex_history ++ [("b", 9%Z)]) db0 (ex_fixed _) ex_order_perm) as [t' Ht'].
  rewrite VPuts_app, Ht in Ht'. cbn [rbind VPuts] in Ht'. apply rbind_inv in Ht' as (t2 & Ht2 & E). injection E as ->.
  exists t, t'. split; [split; eauto|]. split; [apply ex_fixed|]. split; [exact Ht2|]. split; [done|]. apply (ex_below _ _ "a" 5); [left|by exists [1%nat]].
Qed.
Example C48_twice_nonvacuous : exists t (w : Vertex toy), verkle_run (C:=toy) 3 (zr 5) ex_rnd ex_order ex_id2path ([("a", 5%Z)] ++ [("c", 1%Z); ("c", 2%Z)]) t /\
  ex_path "c" = [2%nat] ++ [2%nat] /\ ~ below ex_path [("a", 5%Z)] [2%nat] /\
  stored (vs_db (vt_state t)) (path_key [2%nat]) w /\ Commit (NewPublicParams 5 (zr 5)) (values_vec 3 w) <> Ret (v_V w).
Proof.
  destruct (ex_verkle_run ([("a", 5%Z)] ++ [("c", 1%Z); ("c", 2%Z)]) (zr 5)) as [t Ht].
  assert (Hnb : ~ below ex_path [("a", 5%Z)] [2%nat]).
  { intros (id & z & Hin & [k Hk]). apply elem_of_list_singleton in Hin. injection Hin as -> ->. discriminate Hk. }
  destruct (C48_same_id_twice toy 3 (zr 5) ex_rnd ex_order ex_id2path ex_path 2 [("a", 5%Z)] "c" 1 2 t [2%nat] 2 (ex_fixed _) Ht Logic.eq_refl Hnb) as (w & Hw & _ & _ & Hiff).
  exists t, w. split; [done|]. split; [done|]. split; [done|]. split; [done|]. intros E. apply Hiff in E. rewrite decide_False in E by done.
  assert (E' : zr 50 = zr 625).
  { transitivity ((zr 2 - 0) * zr 5 ^ 2); [|rewrite E].
    - change 0 with (zr 0). cbn [zpow Nat.add]. change 1 with (zr 1). rewrite <- zr_sub, <- !zr_mul. done.
    - cbn [zpow Nat.add]. change 1 with (zr 1). rewrite <- zr_sub, <- !zr_mul. done. }
  apply zr_inj_small in E'; [done|rewrite ?r_eq; vm_compute; done..].
Qed.
Example C49_nonvacuous : exists t t', verkle_run (C:=toy) 3 (zr 5) ex_rnd ex_order ex_id2path ex_history t /\
  fixed_paths 3 ex_id2path ex_path 2 (ex_history ++ [("b", 9%Z)]) /\
  VPut (NewPublicParams (C:=toy) 5 (zr 5)) ex_rnd ex_order 3 ex_id2path t "b" 9 = Ret t' /\ ex_path "b" = [] ++ 0%nat :: [2%nat] /\ below ex_path ex_history [] /\
  [2%nat] <> [] /\ old_liability ex_path ex_history "b" = 7%Z.
Proof.
  destruct C48_nonvacuous as (t & t' & H1 & H2 & H3 & _). exists t, t'. repeat (split; [done|]). split; [apply (ex_below _ _ "a" 5); [left|by eexists]|]. split; [done|]. vm_compute. done.
Qed.

Print Assumptions C42_no_contents.
Print Assumptions C42_same_records.
Print Assumptions C43_round_trip.
Print Assumptions C45_runs_succeed.
Print Assumptions C45_sums.
Print Assumptions C45_root_sum.
Print Assumptions C46_digests.
Print Assumptions C46_bottom.
Print Assumptions C47_inner.
Print Assumptions C47_bottom_once.
Print Assumptions C48_bottom_update.
Print Assumptions C48_same_id_twice.
Print Assumptions C48_few_trapdoors.
Print Assumptions C49_no_refresh.
