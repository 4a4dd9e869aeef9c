(** Facts about the encoding of the vertices of verkle/tree.go. *)
From Verif Require Export Model_verkle Pp_facts Sparse_facts.
Local Open Scope Zr_scope.

Lemma indexed_from_lookup {A} (l : list (option A)) k j :
  indexed_from k l !! j = if decide (k <= j)%nat then match l !! (j - k)%nat with Some o => o | None => None end else None.
Proof.
  revert k. induction l as [|[x|] l IH]; intros k; cbn [indexed_from].
  - rewrite lookup_empty. destruct (decide _); [|done]. by rewrite lookup_nil.
  - destruct (decide (k = j)) as [->|Hne].
    + rewrite lookup_insert, decide_True, Nat.sub_diag by done. done.
    + rewrite lookup_insert_ne, IH by done. destruct (decide (S k <= j)%nat), (decide (k <= j)%nat); try lia; [|done].
      replace (j - k)%nat with (S (j - S k)) by lia. done.
  - rewrite IH. destruct (decide (S k <= j)%nat), (decide (k <= j)%nat); try lia; [| |done].
    + replace (j - k)%nat with (S (j - S k)) by lia. done.
    + replace (j - k)%nat with 0%nat by lia. done.
Qed.
Lemma indexed_lookup {A} (l : list (option A)) j : indexed l !! j = match l !! j with Some o => o | None => None end.
Proof. unfold indexed. rewrite indexed_from_lookup, decide_True, Nat.sub_0_r by lia. done. Qed.

(** Maps with keys below n have at most n entries *)
Lemma size_bound {A} (m : gmap nat A) n : (forall k, is_Some (m !! k) -> k < n)%nat -> (size m <= n)%nat.
Proof.
  intros H. rewrite <- (seq_length n 0). change (size m) with (length (map_to_list m)). rewrite <- (fmap_length fst). apply submseteq_length, NoDup_submseteq; [apply NoDup_fst_map_to_list|].
  intros k Hk. apply elem_of_list_fmap in Hk as ([k' x] & -> & Hk). apply elem_of_map_to_list in Hk. apply elem_of_seq. cbn. split; [lia|]. apply H. eauto.
Qed.

Lemma der_tlv_len_small tag c : (length c < 128)%nat -> length (der_tlv tag c) = (2 + length c)%nat.
Proof.
  intros H. unfold der_tlv, der_len. destruct (Z.ltb_spec (Z.of_nat (length c)) 128); [|lia]. done.
Qed.
Lemma der_tlv_len_le tag c : (Z.of_nat (length c) < 2 ^ 31)%Z -> (length (der_tlv tag c) <= 6 + length c)%nat.
Proof. intros H. unfold der_tlv. cbn [length]. rewrite app_length. pose proof (der_len_length (Z.of_nat (length c)) ltac:(lia)). lia. Qed.

Section Enc.
  Context {C : Curve}.

  Lemma NewZrFromBytes_Bytes x : NewZrFromBytes (Zr_Bytes x) = x.
  Proof. unfold NewZrFromBytes. rewrite be_val_Zr_Bytes, zr_zv. done. Qed.

  (** one entry, as the pair of its fields *)
  Definition kv_raw (kx : nat * Zr) : bytes * bytes := (be_bytes 2 (Z.of_nat (fst kx)), Zr_Bytes (snd kx)).
  Definition kv_contents (r : bytes * bytes) : bytes := der_octets (fst r) ++ der_octets (snd r) ++ [].
  Lemma kv_contents_length kx : length (kv_contents (kv_raw kx)) = 38%nat.
  Proof.
    unfold kv_contents, kv_raw. cbn [fst snd]. unfold der_octets. rewrite app_nil_r, app_length, !der_tlv_len_small; rewrite ?be_bytes_length, ?Zr_Bytes_length; lia.
  Qed.
  Lemma kvs_bytes (l : list (nat * Zr)) : kv_Bytes <$> l = (fun r => der_tlv tag_sequence (kv_contents r)) <$> (kv_raw <$> l).
  Proof. rewrite <- list_fmap_compose. done. Qed.
  Lemma kvs_length (l : list (nat * Zr)) : length (concat (kv_Bytes <$> l)) = (40 * length l)%nat.
  Proof.
    rewrite kvs_bytes. induction l as [|kx l IH]; [done|]. rewrite !fmap_cons. cbn [concat]. rewrite app_length, IH, der_tlv_len_small; rewrite kv_contents_length; cbn [length]; lia.
  Qed.
  Lemma read_kv_raw kx : read_kv (kv_contents (kv_raw kx)) = Some (kv_raw kx).
  Proof.
    unfold read_kv, kv_contents, kv_raw, der_octets. cbn [fst snd]. rewrite der_read_tlv by (rewrite be_bytes_length; lia). rewrite der_read_tlv by (rewrite Zr_Bytes_length; lia). done.
  Qed.
  Lemma read_kvs (l : list (nat * Zr)) fuel : (length l <= fuel)%nat -> der_read_all read_kv fuel (concat (kv_Bytes <$> l)) = Some (kv_raw <$> l).
  Proof.
    intros Hf. rewrite kvs_bytes. apply der_read_all_spec; [by rewrite fmap_length|]. apply Forall_forall. intros r Hr. apply elem_of_list_fmap in Hr as (kx & -> & _).
    rewrite read_kv_raw, kv_contents_length. split; [done|lia].
  Qed.
  Lemma read_map_raw (l : list (nat * Zr)) m : Forall (fun kx => Z.of_nat (fst kx) < 65536)%Z l -> NoDup l.*1 ->
    exists m', read_map (kv_raw <$> l) m = Ret m' /\ (forall k x, (k, x) ∈ l -> m' !! k = Some x) /\ (forall k, k ∉ l.*1 -> m' !! k = m !! k).
  Proof.
    revert m. induction l as [|[k x] l IH]; intros m Hl Hn; [exists m; split; [done|]; split; [|done]; intros k x H; by apply elem_of_nil in H|].
    apply Forall_cons in Hl as [Hk Hl]. rewrite fmap_cons in Hn. apply NoDup_cons in Hn as [Hk0 Hn]. cbn [fst] in *. rewrite fmap_cons. cbn [kv_raw fst snd read_map].
    rewrite be_bytes_length. cbn [Nat.leb]. rewrite take_ge by (rewrite be_bytes_length; lia). rewrite NewZrFromBytes_Bytes, be_val_be_bytes by (change (256 ^ Z.of_nat 2)%Z with 65536%Z; lia).
    rewrite Nat2Z.id. destruct (IH (<[k := x]> m) Hl Hn) as (m' & -> & H1 & H2). exists m'. split; [done|]. split.
    - intros k' x' [[= -> ->]|Hin]%elem_of_cons; [rewrite H2 by done; by rewrite lookup_insert|by apply H1].
    - intros k' Hk'. rewrite fmap_cons, not_elem_of_cons in Hk'. cbn [fst] in Hk'. rewrite H2 by tauto. rewrite lookup_insert_ne; [done|]. intros ->. tauto.
  Qed.
  Lemma read_map_perm (l : list (nat * Zr)) (m : gmap nat Zr) : (forall k, is_Some (m !! k) -> Z.of_nat k < 65536)%Z -> l ≡ₚ map_to_list m -> read_map (kv_raw <$> l) ∅ = Ret m.
  Proof.
    intros Hm Hl. destruct (read_map_raw l ∅) as (m' & -> & H1 & H2).
    - apply Forall_forall. intros [k x] Hk. rewrite Hl in Hk. apply elem_of_map_to_list in Hk. apply Hm. eauto.
    - rewrite Hl. apply NoDup_fst_map_to_list.
    - f_equal. apply map_eq. intros k. destruct (m !! k) as [x|] eqn:E.
      + apply H1. rewrite Hl. by apply elem_of_map_to_list.
      + rewrite H2, lookup_empty; [done|]. intros Hk. rewrite Hl in Hk. apply elem_of_list_fmap in Hk as ([k' x] & -> & Hk). apply elem_of_map_to_list in Hk. cbn in E. congruence.
  Qed.

  (** Indices are uint16 *)
  Definition keys_ok (m : gmap nat Zr) : Prop := forall k, is_Some (m !! k) -> (Z.of_nat k < 65536)%Z.
  Lemma keys_ok_length m l : keys_ok m -> l ≡ₚ map_to_list m -> (Z.of_nat (length l) <= 65536)%Z.
  Proof.
    intros Hm Hl. rewrite Hl. change (length (map_to_list m)) with (size m). pose proof (size_bound m (Z.to_nat 65536)) as H. enough (size m <= Z.to_nat 65536)%nat by lia. apply H. intros k Hk. specialize (Hm k Hk). lia.
  Qed.
  Lemma FromBytes_Bytes od ov (v : Vertex C) : od ≡ₚ map_to_list (v_digests v) -> ov ≡ₚ map_to_list (v_values v) ->
    keys_ok (v_digests v) -> keys_ok (v_values v) -> FromBytes (Vertex_Bytes od ov v) = Ret v.
  Proof.
    intros Hod Hov Hd Hv. unfold FromBytes, Vertex_Bytes, read_RawVertex.
    pose proof (keys_ok_length _ _ Hd Hod) as Ld. pose proof (keys_ok_length _ _ Hv Hov) as Lv. pose proof (g1_len_bound C) as Lg.
    set (wb := match v_W v with Some W => enc1 C W | None => [] end).
    assert (Lw : (Z.of_nat (length wb) < 65536)%Z) by (unfold wb; destruct (v_W v); [rewrite enc1_len|cbn]; lia).
    set (a1 := der_octets (Zr_Bytes (v_bf v))). set (a2 := der_seq (kv_Bytes <$> ov)). set (a3 := der_seq (kv_Bytes <$> od)). set (a4 := der_octets (Zr_Bytes (v_sum v))).
    set (a5 := der_octets (enc1 C (v_V v))). set (a6 := der_octets wb).
    assert (L1 : (length a1 <= 38)%nat) by (unfold a1, der_octets; etransitivity; [apply der_tlv_len_le|]; rewrite Zr_Bytes_length; lia).
    assert (L4 : (length a4 <= 38)%nat) by (unfold a4, der_octets; etransitivity; [apply der_tlv_len_le|]; rewrite Zr_Bytes_length; lia).
    assert (L2 : (length a2 <= 6 + 40 * length ov)%nat) by (unfold a2, der_seq; etransitivity; [apply der_tlv_len_le|]; rewrite kvs_length; lia).
    assert (L3 : (length a3 <= 6 + 40 * length od)%nat) by (unfold a3, der_seq; etransitivity; [apply der_tlv_len_le|]; rewrite kvs_length; lia).
    assert (L5 : (length a5 <= 6 + g1_len C)%nat) by (unfold a5, der_octets; etransitivity; [apply der_tlv_len_le|]; rewrite enc1_len; lia).
    assert (L6 : (length a6 <= 6 + length wb)%nat) by (unfold a6, der_octets; apply der_tlv_len_le; lia).
    unfold der_seq at 1. rewrite <- (app_nil_r (der_tlv _ _)), der_read_tlv; [|cbn [concat]; rewrite !app_length; cbn [length]; lia].
    cbn [concat]. rewrite app_nil_r. unfold a1, der_octets. rewrite der_read_tlv by (rewrite Zr_Bytes_length; lia). unfold a2, der_seq.
    rewrite der_read_tlv by (rewrite kvs_length; lia). rewrite read_kvs by (rewrite kvs_length; lia). unfold a3, der_seq.
    rewrite der_read_tlv by (rewrite kvs_length; lia). rewrite read_kvs by (rewrite kvs_length; lia). unfold a4, der_octets.
    rewrite der_read_tlv by (rewrite Zr_Bytes_length; lia). unfold a5, der_octets. rewrite der_read_tlv by (rewrite enc1_len; lia).
    unfold a6, der_octets. rewrite <- (app_nil_r (der_tlv _ _)), der_read_tlv by lia. rewrite dec1_enc1. rewrite (read_map_perm od (v_digests v)), (read_map_perm ov (v_values v)) by done. rewrite !NewZrFromBytes_Bytes.
    assert (Ew : match wb with [] => Ret None | _ => match dec1 C wb with Some W => Ret (Some W) | None => Panic end end = Ret (v_W v)).
    { unfold wb. destruct (v_W v) as [W|]; [|done]. rewrite dec1_enc1. destruct (enc1 C W) eqn:E; [|done]. pose proof (enc1_len C W) as H. rewrite E in H. cbn in H. lia. }
    rewrite Ew. destruct v; done.
  Qed.
  Lemma Vertex_Bytes_nonempty od ov (v : Vertex C) : Vertex_Bytes od ov v <> [].
  Proof. done. Qed.

  (** The digest *)
  Definition vertex_hash (v : Vertex C) : Zr := fe (sha256 C (enc1 C (v_V v) ++ match v_W v with Some W => enc1 C W | None => [] end)).
  Lemma Vertex_Digest_spec v : Vertex_Digest v = Ret (vertex_hash v).
  Proof. apply fe_sha. Qed.
End Enc.
