(** Property C86: the exact bytes of stored vertices and serialized trees, their sizes, and what the decoder ignores. *)
From Verif Require Import Model_der Model_sparse Model_verkle Sparse_facts Prop_sparse Verkle_enc Toy.
Local Open Scope Z_scope.

(** ** Specification: DER, written down from X.690 *)
Definition big_endian (d : bytes) : Z := foldr (fun bw s => fst bw * 256 ^ Z.of_nat (snd bw) + s) 0 (zip d (reverse (seq 0 (length d)))).
(** The length field: one byte below 128; otherwise 128 + the number of the following bytes, which hold the length without leading zeros *)
Definition length_field (n : Z) (l : bytes) : Prop :=
  (n < 128 /\ l = [n]) \/ (128 <= n /\ exists d, l = (128 + Z.of_nat (length d)) :: d /\ big_endian d = n /\ exists b, head d = Some b /\ 0 < b).
Definition element (tag : Z) (contents bs : bytes) : Prop := exists l, length_field (Z.of_nat (length contents)) l /\ bs = tag :: l ++ contents.
(** Octet string, printable string, sequence *)
Definition is_octets := element 0x04. Definition is_printable := element 0x13.
Definition is_sequence (elems : list bytes) (bs : bytes) : Prop := element 0x30 (concat elems) bs.
(** The 32 bytes of a scalar, most significant first *)
Definition is_scalar (x : Zr) (bs : bytes) : Prop := length bs = 32%nat /\ Forall (fun b => 0 <= b < 256) bs /\ big_endian bs = zv x.
(** One entry of a map: a 2-byte key and a scalar *)
Definition is_entry (kx : nat * Zr) (bs : bytes) : Prop := exists k x a b, length k = 2%nat /\ big_endian k = Z.of_nat (fst kx) /\ is_scalar (snd kx) x /\ is_octets k a /\ is_octets x b /\ is_sequence [a; b] bs.
Definition is_entries (m : gmap nat Zr) (bs : bytes) : Prop := exists l es, l ≡ₚ map_to_list m /\ Forall2 is_entry l es /\ is_sequence es bs.
Definition is_vertex {C : Curve} (v : Vertex C) (bs : bytes) : Prop := exists bf sum e1 e2 e3 e4 e5 e6,
  is_scalar (v_bf v) bf /\ is_scalar (v_sum v) sum /\ is_octets bf e1 /\ is_entries (v_values v) e2 /\ is_entries (v_digests v) e3 /\ is_octets sum e4 /\
  is_octets (enc1 C (v_V v)) e5 /\ is_octets (match v_W v with Some W => enc1 C W | None => [] end) e6 /\ is_sequence [e1; e2; e3; e4; e5; e6] bs.
(** One record of a serialized tree: 32 bytes, of which the first four hold the length of the element that follows and the rest is zero *)
Definition is_record (key contents rec : bytes) : Prop := exists a b r h, is_printable key a /\ is_octets contents b /\ is_sequence [a; b] r /\
  length h = 4%nat /\ big_endian h = Z.of_nat (length r) /\ rec = h ++ replicate 28 0 ++ r.

Lemma big_endian_val d : big_endian d = be_val d.
Proof.
  induction d as [|b d IH] using rev_ind; [done|]. rewrite be_val_app, <- IH. clear IH. unfold big_endian. rewrite app_length. cbn [length]. rewrite Nat.add_1_r. cbn [seq]. rewrite reverse_cons.
  rewrite zip_with_app by (rewrite reverse_length, seq_length; done). rewrite foldr_app. cbn [zip_with foldr fst snd]. change (256 ^ Z.of_nat 0) with 1.
  rewrite <- fmap_S_seq, <- fmap_reverse. generalize (reverse (seq 0 (length d))). induction d as [|c d IH]; intros l; [cbn; lia|]. destruct l as [|n l]; [cbn; lia|].
  rewrite fmap_cons. cbn [zip_with foldr fst snd]. rewrite IH. rewrite Nat2Z.inj_succ, Z.pow_succ_r by lia. lia.
Qed.
Lemma der_len_field n : 0 <= n -> length_field n (der_len n).
Proof.
  intros Hn. unfold der_len. destruct (Z.ltb_spec n 128) as [H|H]; [left; done|right]. split; [done|].
  destruct (der_len_len_spec n H) as [[H1 H2] H3]. exists (be_bytes (der_len_len n) n). rewrite be_bytes_length. split; [done|]. split; [rewrite big_endian_val, be_val_be_bytes by lia; done|].
  destruct (der_len_len n) as [|k]; [lia|]. rewrite be_bytes_S_head. eexists. split; [done|]. replace (Z.of_nat (S k) - 1) with (Z.of_nat k) in H1 by lia. rewrite Nat2Z.inj_succ, Z.pow_succ_r in H2 by lia.
  pose proof (Z.pow_pos_nonneg 256 (Z.of_nat k) ltac:(lia) ltac:(lia)). rewrite Z.mod_small; [apply Z.div_str_pos; lia|]. split; [apply Z.div_pos; lia|]. apply Z.div_lt_upper_bound; lia.
Qed.
Lemma tlv_element tag c : element tag c (der_tlv tag c).
Proof. exists (der_len (Z.of_nat (length c))). split; [apply der_len_field; lia|done]. Qed.
Lemma Zr_scalar x : is_scalar x (Zr_Bytes x).
Proof. split; [apply be_bytes_length|]. split; [apply be_bytes_wf|]. rewrite big_endian_val. apply be_val_Zr_Bytes. Qed.
Lemma kv_entry kx : Z.of_nat (fst kx) < 65536 -> is_entry kx (kv_Bytes kx).
Proof.
  intros H. exists (be_bytes 2 (Z.of_nat (fst kx))), (Zr_Bytes (snd kx)), (der_octets (be_bytes 2 (Z.of_nat (fst kx)))), (der_octets (Zr_Bytes (snd kx))).
  split; [apply be_bytes_length|]. split; [rewrite big_endian_val; apply be_val_be_bytes; change (256 ^ Z.of_nat 2) with 65536; lia|]. split; [apply Zr_scalar|]. split; [apply tlv_element|]. split; [apply tlv_element|]. apply tlv_element.
Qed.
Lemma entries_ok (m : gmap nat Zr) l : l ≡ₚ map_to_list m -> (forall k, is_Some (m !! k) -> Z.of_nat k < 65536) -> is_entries m (der_seq (kv_Bytes <$> l)).
Proof.
  intros Hl Hk. exists l, (kv_Bytes <$> l). split; [done|]. split; [|apply tlv_element]. apply Forall2_fmap_r. apply Forall_Forall2_diag, Forall_forall. intros [k x] Hin. apply kv_entry. cbn. apply Hk.
  rewrite Hl in Hin. apply elem_of_map_to_list in Hin. eauto.
Qed.

(** ** C86 *)
Theorem C86_vertex_layout : forall (C : Curve) (v : Vertex C) od ov, od ≡ₚ map_to_list (v_digests v) -> ov ≡ₚ map_to_list (v_values v) ->
  (forall k, is_Some (v_digests v !! k) -> Z.of_nat k < 65536) -> (forall k, is_Some (v_values v !! k) -> Z.of_nat k < 65536) ->
  is_vertex v (Vertex_Bytes od ov v).
Proof.
  intros C v od ov Hd Hv Hkd Hkv. exists (Zr_Bytes (v_bf v)), (Zr_Bytes (v_sum v)). do 6 eexists. split; [apply Zr_scalar|]. split; [apply Zr_scalar|]. split; [apply tlv_element|].
  split; [apply (entries_ok _ ov); done|]. split; [apply (entries_ok _ od); done|]. split; [apply tlv_element|]. split; [apply tlv_element|]. split; [apply tlv_element|]. apply tlv_element.
Qed.

Lemma string_bytes_len s : length (string_bytes s) = String.length s. Proof. induction s; cbn; congruence. Qed.
Lemma ser_record_ok s b : Z.of_nat (length b + String.length s) + 12 < 2 ^ 31 -> is_record (string_bytes s) b (ser_record s b).
Proof.
  intros Hlen. exists (der_printable (string_bytes s)), (der_octets b), (der_seq [der_printable (string_bytes s); der_octets b]).
  set (r := der_seq [der_printable (string_bytes s); der_octets b]).
  assert (Hr : Z.of_nat (length r) < 2 ^ 32).
  { assert (Hc : (Z.of_nat (length (der_printable (string_bytes s) ++ der_octets b)) < 2 ^ 31)).
    { unfold der_printable, der_octets, der_tlv. rewrite app_length. cbn [length]. rewrite !app_length, string_bytes_len.
      pose proof (der_len_length (Z.of_nat (String.length s)) ltac:(lia)). pose proof (der_len_length (Z.of_nat (length b)) ltac:(lia)). lia. }
    unfold r, der_seq, der_tlv. cbn [concat]. rewrite app_nil_r. cbn [length]. rewrite app_length.
    pose proof (der_len_length (Z.of_nat (length (der_printable (string_bytes s) ++ der_octets b))) ltac:(lia)). lia. }
  exists (be_bytes 4 (Z.of_nat (length r))). split; [apply tlv_element|]. split; [apply tlv_element|]. split; [apply tlv_element|]. split; [apply be_bytes_length|].
  split; [rewrite big_endian_val; apply be_val_be_bytes; change (256 ^ Z.of_nat 4) with (2 ^ 32); lia|]. unfold ser_record. fold r. cbv zeta. unfold ser_header. rewrite Z.mod_small by lia. rewrite <- app_assoc. done.
Qed.
Section Layout.
  Context {D : Type} (order : string -> list (nat * bytes) -> list (nat * bytes)) (order_perm : forall s l, order s l ≡ₚ l) (f : option D -> bytes).
  Notation rec_of := (fun rb : path * bytes => ser_record (path_key (fst rb)) (snd rb)).
  Lemma records_of (v : vtx D) : forall q, unique_keys v -> exists rs, Serialize order f v (path_key q) = concat (rec_of <$> rs) /\
    forall r b, (r, b) ∈ rs -> exists r' u, r = q ++ r' /\ at_path v r' = Some u /\ b = f (vdata u).
  Proof.
    induction v as [k d m IH] using vtx_ind'. intros q Hu. cbn [Serialize]. assert (Hm : NoDup m.*1) by (apply (Hu [] _ Logic.eq_refl)).
    set (out := map (fun ku : nat * vtx D => (fst ku, Serialize order f (snd ku) (child_key (path_key q) (fst ku)))) m).
    assert (Hc : forall l : list (nat * bytes), (forall x, x ∈ l -> x ∈ out) -> exists rs, concat (map snd l) = concat (rec_of <$> rs) /\ forall r b, (r, b) ∈ rs -> exists r' u, r = q ++ r' /\ at_path (Vtx k d m) r' = Some u /\ b = f (vdata u)).
    { induction l as [|[i o] l IHl]; intros Hl; [exists []; split; [done|]; intros r b Hin; by apply elem_of_nil in Hin|].
      destruct IHl as (rs & E & H); [intros x Hx; apply Hl; by right|]. specialize (Hl (i, o) ltac:(left)). unfold out in Hl. apply elem_of_list_In, in_map_iff in Hl as ([i' u] & [= <- <-] & Hin). cbn [fst snd].
      apply elem_of_list_In in Hin. rewrite Forall_forall in IH. pose proof (IH _ Hin (q ++ [i'])) as IHu. cbn [snd] in IHu. assert (Hg : mget m i' = Some u) by (by apply elem_mget_iff).
      destruct IHu as (rs' & E' & H'); [by apply (unique_child (Vtx k d m) i')|]. rewrite path_key_snoc in E'. exists (rs' ++ rs). cbn [map concat snd]. rewrite E, E', fmap_app, concat_app. split; [done|].
      intros r b [Hr|Hr]%elem_of_app; [|by apply H]. destruct (H' r b Hr) as (r' & w & -> & Hw & ->). exists (i' :: r'), w. rewrite <- app_assoc. split; [done|]. cbn [at_path vdesc]. rewrite Hg. done. }
    destruct (Hc (order (path_key q) out)) as (rs & E & H); [intros x Hx; by rewrite (order_perm _ out) in Hx|].
    exists ((q, f d) :: rs). rewrite fmap_cons, E. split; [done|]. intros r b [Hr|Hr]%elem_of_cons; [|by apply H]. injection Hr as -> ->. exists [], (Vtx k d m). rewrite app_nil_r. done.
  Qed.
  Lemma read_records rs : (forall r b, (r, b) ∈ rs -> Z.of_nat (length b + String.length (path_key r)) + 12 < 2 ^ 31) ->
    read_stream (concat (rec_of <$> rs)) = Some ((fun rb => (string_bytes (path_key (fst rb)), snd rb)) <$> rs).
  Proof.
    intros H. assert (G : parse_stream (length rs) (concat (rec_of <$> rs)) = Some ((fun rb => (string_bytes (path_key (fst rb)), snd rb)) <$> rs)).
    { induction rs as [|[r b] rs IH]; [done|]. rewrite !fmap_cons. cbn [concat length fst snd]. apply parse_record; [apply H; left|]. apply IH. intros r' b' Hin. apply H. by right. }
    unfold read_stream. by apply (parse_stream_len _ _ _ G).
  Qed.
End Layout.

Theorem C86_stream_layout : forall {D St} (upd : callback D St) F id2path (v : vtx D) (order : string -> list (nat * bytes) -> list (nat * bytes)) (f : option D -> bytes),
  reachable upd F id2path (Some v) -> (forall s l, order s l ≡ₚ l) ->
  (forall q u, at_path v q = Some u -> Z.of_nat (length (f (vdata u)) + String.length (path_key q)) + 12 < 2 ^ 31) ->
  exists (recs : list (path * bytes)) (bss : list bytes), Serialize order f v "" = concat bss /\
    Forall2 (fun rb bs => is_record (string_bytes (path_key (fst rb))) (snd rb) bs) recs bss /\
    NoDup recs.*1 /\ (forall q b, (q, b) ∈ recs <-> exists u, at_path v q = Some u /\ b = f (vdata u)).
Proof.
  intros D St upd F id2path v order f Hr Ho Hs. destruct (C41_stream upd F id2path v order f Hr Ho Hs) as (recs & H1 & H2 & H3). pose proof (reachable_unique _ _ _ _ Hr) as Hu. cbn [root_of] in Hu.
  destruct (records_of order Ho f v [] Hu) as (rs & E & H). change (path_key []) with "" in E.
  assert (Hsz : forall r b, (r, b) ∈ rs -> Z.of_nat (length b + String.length (path_key r)) + 12 < 2 ^ 31) by (intros r b Hin; destruct (H r b Hin) as (r' & u & -> & Hu' & ->); cbn [app]; by apply Hs).
  assert (recs = rs) as ->.
  { rewrite E, (read_records rs Hsz) in H1. apply (inj Some) in H1. clear -H1. revert rs H1. induction recs as [|[q b] recs IH]; intros [|[q' b'] rs] H; try done. rewrite !fmap_cons in H. cbn [fst snd] in H.
    injection H as Hq <- H'. apply string_bytes_inj, C36_keys_unique in Hq as ->. f_equal. by apply IH. }
  exists rs, ((fun rb => ser_record (path_key (fst rb)) (snd rb)) <$> rs). split; [exact E|]. split; [|done]. apply Forall2_fmap_r, Forall_Forall2_diag, Forall_forall. intros [q b] Hin. apply ser_record_ok. by apply Hsz.
Qed.

(** The decoder looks at the first element only. *)
Lemma der_read_long_app n : forall acc bs x rest y, der_read_long n acc bs = Some (x, rest) -> der_read_long n acc (bs ++ y) = Some (x, rest ++ y).
Proof.
  induction n as [|n IH]; intros acc bs x rest y H; cbn [der_read_long] in *; [destruct (acc <? 128); [done|]; injection H as <- <-; done|]. destruct bs as [|b bs]; [done|]. cbn [app].
  destruct (_ >=? _); [done|]. cbv zeta in *. destruct (_ =? 0); [done|]. by apply IH.
Qed.
Lemma der_read_app tag bs c rest y : der_read tag bs = Some (c, rest) -> der_read tag (bs ++ y) = Some (c, rest ++ y).
Proof.
  unfold der_read. destruct bs as [|t bs]; [done|]. cbn [app]. destruct (t =? tag); [|done]. intros H. destruct (der_read_len bs) as [[n bs']|] eqn:E; [|done].
  assert (E' : der_read_len (bs ++ y) = Some (n, bs' ++ y)).
  { unfold der_read_len in *. destruct bs as [|b bs]; [done|]. cbn [app]. destruct (b <? 128); [injection E as <- <-; done|]. destruct (b =? 128); [done|]. by apply der_read_long_app. }
  rewrite E'. destruct (Z.leb_spec n (Z.of_nat (length bs'))) as [Hn|]; [|done]. injection H as <- <-. rewrite app_length. rewrite (proj2 (Z.leb_le n _)) by lia. rewrite take_app_le, drop_app_le by lia. done.
Qed.
Theorem C86_trailing_bytes_ignored : forall (C : Curve) bs y (v : Vertex C), FromBytes bs = Ret v -> FromBytes (bs ++ y) = Ret v.
Proof.
  intros C bs y v. unfold FromBytes. assert (E : forall x, read_RawVertex bs = Some x -> read_RawVertex (bs ++ y) = Some x).
  { intros x. unfold read_RawVertex. destruct (der_read tag_sequence bs) as [[c rest]|] eqn:E; [|done]. rewrite (der_read_app _ _ _ _ y E). done. }
  destruct (read_RawVertex bs) as [x|]; [|done]. rewrite (E x Logic.eq_refl). done.
Qed.

(** The size of an element with n bytes of contents, and of a stored vertex *)
Definition length_size (n : Z) : Z := if n <? 128 then 1 else if n <? 256 then 2 else if n <? 65536 then 3 else if n <? 16777216 then 4 else 5.
Definition element_size (n : Z) : Z := 1 + length_size n + n.
Definition vertex_size (point digests values : Z) (W : bool) : Z :=
  element_size (34 + element_size (40 * values) + element_size (40 * digests) + 34 + element_size point + element_size (if W then point else 0)).
Lemma der_len_size n : 0 <= n < 2 ^ 31 -> Z.of_nat (length (der_len n)) = length_size n.
Proof.
  intros Hn. unfold der_len, length_size. destruct (Z.ltb_spec n 128) as [H|H]; [done|]. cbn [length]. rewrite be_bytes_length. destruct (der_len_len_spec n H) as [[H1 H2] H3].
  set (k := der_len_len n) in *. assert (Hk : (k <= 4)%nat).
  { destruct (decide (k <= 4)%nat) as [|Hk]; [done|exfalso]. assert (256 ^ 4 <= 256 ^ (Z.of_nat k - 1)) by (apply Z.pow_le_mono_r; lia). change (256 ^ 4) with (2 ^ 32) in *. lia. }
  destruct k as [|[|[|[|[|k]]]]]; try lia; cbn in H1, H2;
    repeat match goal with |- context [?a <? ?b] => destruct (Z.ltb_spec a b) end; lia.
Qed.
Lemma tlv_size tag c : Z.of_nat (length c) < 2 ^ 31 -> Z.of_nat (length (der_tlv tag c)) = element_size (Z.of_nat (length c)).
Proof. intros H. unfold der_tlv, element_size. cbn [length]. rewrite app_length, Nat2Z.inj_succ, Nat2Z.inj_add, der_len_size by lia. lia. Qed.
Lemma element_size_bound n : 0 <= n -> n + 2 <= element_size n <= n + 6.
Proof. intros H. unfold element_size, length_size. repeat match goal with |- context [?a <? ?b] => destruct (Z.ltb_spec a b) end; lia. Qed.
Lemma kv_size kx : Z.of_nat (length (kv_Bytes kx)) = 40.
Proof.
  unfold kv_Bytes, der_seq, der_octets. cbn [concat]. rewrite app_nil_r. 
  assert (E1 : Z.of_nat (length (der_tlv tag_octets (be_bytes 2 (Z.of_nat (fst kx))))) = 4) by (rewrite tlv_size; rewrite be_bytes_length; done).
  assert (E2 : Z.of_nat (length (der_tlv tag_octets (Zr_Bytes (snd kx)))) = 34) by (rewrite tlv_size; unfold Zr_Bytes; rewrite be_bytes_length; done).
  rewrite tlv_size; rewrite app_length, Nat2Z.inj_add, E1, E2; done.
Qed.
Lemma kvs_size l : Z.of_nat (length l) <= 65536 -> Z.of_nat (length (der_seq (kv_Bytes <$> l))) = element_size (40 * Z.of_nat (length l)).
Proof.
  intros Hl. assert (E : Z.of_nat (length (concat (kv_Bytes <$> l))) = 40 * Z.of_nat (length l)).
  { clear. induction l as [|x l IH]; [done|]. rewrite fmap_cons. cbn [concat length]. rewrite app_length, Nat2Z.inj_add, IH, kv_size. lia. }
  unfold der_seq. rewrite tlv_size; rewrite E; [done|lia].
Qed.
Theorem C86_vertex_size : forall (C : Curve) (v : Vertex C) od ov, od ≡ₚ map_to_list (v_digests v) -> ov ≡ₚ map_to_list (v_values v) ->
  Z.of_nat (size (v_digests v)) <= 65536 -> Z.of_nat (size (v_values v)) <= 65536 ->
  Z.of_nat (length (Vertex_Bytes od ov v)) = vertex_size (Z.of_nat (g1_len C)) (Z.of_nat (size (v_digests v))) (Z.of_nat (size (v_values v))) (match v_W v with Some _ => true | None => false end).
Proof.
  intros C v od ov Hd Hv Ld Lv. pose proof (g1_len_bound C) as Hg.
  assert (Ed : length od = size (v_digests v)) by (rewrite Hd; reflexivity). assert (Ev : length ov = size (v_values v)) by (rewrite Hv; reflexivity).
  assert (EW : Z.of_nat (length (match v_W v return bytes with Some W => enc1 C W | None => [] end)) = if match v_W v with Some _ => true | None => false end then Z.of_nat (g1_len C) else 0) by (destruct (v_W v); [rewrite enc1_len|]; done).
  unfold Vertex_Bytes. set (wb := match v_W v return bytes with Some W => enc1 C W | None => [] end) in *. set (w := match v_W v with Some _ => true | None => false end) in *. clearbody wb w.
  unfold vertex_size. rewrite <- Ed, <- Ev in *. 
  assert (Es : forall x, Z.of_nat (length (der_octets (Zr_Bytes x))) = 34) by (intros x; unfold der_octets; rewrite tlv_size; unfold Zr_Bytes; rewrite be_bytes_length; done).
  assert (EV : Z.of_nat (length (der_octets (enc1 C (v_V v)))) = element_size (Z.of_nat (g1_len C))) by (unfold der_octets; rewrite tlv_size; rewrite enc1_len; [done|lia]).
  assert (EWs : Z.of_nat (length (der_octets wb)) = element_size (if w then Z.of_nat (g1_len C) else 0)) by (unfold der_octets; rewrite tlv_size; rewrite EW; [done|destruct w; lia]).
  unfold der_seq at 1. cbn [concat]. rewrite app_nil_r. set (D1 := der_seq (kv_Bytes <$> ov)). set (D2 := der_seq (kv_Bytes <$> od)).
  pose proof (kvs_size ov Lv) as E1. fold D1 in E1. pose proof (kvs_size od Ld) as E2. fold D2 in E2.
  match goal with |- Z.of_nat (length (der_tlv _ ?c)) = _ => assert (E : Z.of_nat (length c) = 34 + element_size (40 * Z.of_nat (length ov)) + element_size (40 * Z.of_nat (length od)) + 34 + element_size (Z.of_nat (g1_len C)) + element_size (if w then Z.of_nat (g1_len C) else 0))
    by (rewrite !app_length, !Nat2Z.inj_add, !Es, EV, EWs, E1, E2; lia) end.
  rewrite tlv_size; rewrite E; [done|].
  pose proof (element_size_bound (40 * Z.of_nat (length ov)) ltac:(lia)). pose proof (element_size_bound (40 * Z.of_nat (length od)) ltac:(lia)). pose proof (element_size_bound (Z.of_nat (g1_len C)) ltac:(lia)).
  pose proof (element_size_bound (if w then Z.of_nat (g1_len C) else 0) ltac:(destruct w; lia)). destruct w; lia.
Qed.
Print Assumptions C86_vertex_layout.
Print Assumptions C86_stream_layout.
Print Assumptions C86_trailing_bytes_ignored.
Print Assumptions C86_vertex_size.

(** ** A concrete case *)
(** BN254 points have 64 bytes: a full inner vertex of a tree with fanout 7 and a bottom vertex with one liability *)
Example C86_sizes : vertex_size 64 7 7 true = 772 /\ vertex_size 64 0 1 false = 183. Proof. done. Qed.
Example C86_nonvacuous : (let v := MkVertex (C:=toy) (zr 3) {[0%nat := zr 1; 300%nat := zr 2]} {[7%nat := zr 9]} (zr 3) (zr 11) None in
    (forall k, is_Some (v_digests v !! k) -> Z.of_nat k < 65536) /\ (forall k, is_Some (v_values v !! k) -> Z.of_nat k < 65536) /\ size (v_values v) = 2%nat /\ size (v_digests v) = 1%nat /\
    FromBytes (Vertex_Bytes (map_to_list (v_digests v)) (map_to_list (v_values v)) v ++ [1; 2; 3]) = Ret v) /\
  reachable sum_callback 3 ex_id2path (Some ex_tree) /\
  Serialize (fun _ l => l) (fun _ => [7]) (Vtx ".2" (Some 1) [] : vtx Z) ".2" = [0; 0; 0; 9] ++ replicate 28 0 ++ [0x30; 7; 0x13; 2; 46; 50; 0x04; 1; 7].
Proof.
  split; [|split; [exact ex_reachable|vm_compute; reflexivity]]. cbv zeta. set (v := MkVertex _ _ _ _ _ _).
  assert (H1 : forall k, is_Some (v_digests v !! k) -> Z.of_nat k < 65536) by (intros k [x Hk]; change (({[7%nat := zr 9]} : gmap nat Zr) !! k = Some x) in Hk; apply lookup_singleton_Some in Hk as [<- _]; lia).
  assert (H2 : forall k, is_Some (v_values v !! k) -> Z.of_nat k < 65536) by (intros k [x Hk]; change ((<[0%nat := zr 1]> {[300%nat := zr 2]} : gmap nat Zr) !! k = Some x) in Hk; apply lookup_insert_Some in Hk as [[<- _]|[_ Hk]]; [lia|]; apply lookup_singleton_Some in Hk as [<- _]; apply Z.ltb_lt; vm_compute; done).
  split; [exact H1|]. split; [exact H2|]. split; [vm_compute; reflexivity|]. split; [vm_compute; reflexivity|].
  apply C86_trailing_bytes_ignored. apply FromBytes_Bytes; done.
Qed.
