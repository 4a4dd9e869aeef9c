(** Model of the part of Go's encoding/asn1 used by /repo/sparse/tree.go and /repo/verkle/tree.go: DER encoding
    of structures of octet strings, printable strings and sequences, and its decoding.  Library code, modelled
    from its documented behaviour (DER with minimal lengths below 2^31). *)
From Verif Require Export Common_facts.
Local Open Scope Z_scope.

(** Number of bytes of a length n >= 128 (asn1 lengthLength). *)
Definition der_len_len (n : Z) : nat := Z.to_nat (Z.log2 n / 8 + 1).
(** asn1 appendTagAndLength: the length field *)
Definition der_len (n : Z) : bytes :=
  if n <? 128 then [n] else (128 + Z.of_nat (der_len_len n)) :: be_bytes (der_len_len n) n.
(** One element: tag, length, contents *)
Definition der_tlv (tag : Z) (contents : bytes) : bytes := tag :: der_len (Z.of_nat (length contents)) ++ contents.
Definition tag_octets : Z := 4.
Definition tag_printable : Z := 19.
Definition tag_sequence : Z := 48.
Definition der_octets (bs : bytes) : bytes := der_tlv tag_octets bs.
Definition der_printable (bs : bytes) : bytes := der_tlv tag_printable bs.
Definition der_seq (elems : list bytes) : bytes := der_tlv tag_sequence (concat elems).

(** asn1 parseTagAndLength, the loop over the bytes of a long-form length *)
Fixpoint der_read_long (n : nat) (acc : Z) (bs : bytes) : option (Z * bytes) :=
  match n with
  | O => if acc <? 128 then None (* non-minimal *) else Some (acc, bs)
  | S n =>
    match bs with
    | [] => None
    | b :: bs =>
      if acc >=? 2 ^ 23 then None (* too large *)
      else let acc := acc * 256 + b in
      if acc =? 0 then None (* leading zeros *) else der_read_long n acc bs
    end
  end.
Definition der_read_len (bs : bytes) : option (Z * bytes) :=
  match bs with
  | [] => None
  | b :: bs => if b <? 128 then Some (b, bs) else if b =? 128 then None else der_read_long (Z.to_nat (b - 128)) 0 bs
  end.
(** An element with the expected tag: its contents and the bytes after it.  Any other tag, and truncated data, are
    errors. *)
Definition der_read (tag : Z) (bs : bytes) : option (bytes * bytes) :=
  match bs with
  | [] => None
  | t :: bs =>
    if t =? tag then
      match der_read_len bs with
      | Some (n, bs) => if n <=? Z.of_nat (length bs) then Some (take (Z.to_nat n) bs, drop (Z.to_nat n) bs) else None
      | None => None
      end
    else None
  end.
(** Contents of a SEQUENCE OF: all elements, decoded by [f] from the contents of a sequence; the elements consume at
    least one byte each, so the length of the input is enough fuel. *)
Fixpoint der_read_all {A} (f : bytes -> option A) (fuel : nat) (bs : bytes) : option (list A) :=
  match bs with
  | [] => Some []
  | _ => match fuel with
    | O => None
    | S fuel =>
      match der_read tag_sequence bs with
      | Some (c, rest) =>
        match f c, der_read_all f fuel rest with Some a, Some l => Some (a :: l) | _, _ => None end
      | None => None
      end
    end
  end.

(** ** Facts *)
Lemma der_len_len_spec n : 128 <= n -> 256 ^ (Z.of_nat (der_len_len n) - 1) <= n < 256 ^ Z.of_nat (der_len_len n) /\ (1 <= der_len_len n)%nat.
Proof.
  intros Hn. unfold der_len_len. pose proof (Z.log2_spec n ltac:(lia)) as [H1 H2]. pose proof (Z.log2_nonneg n) as H0.
  pose proof (Z.div_pos (Z.log2 n) 8 H0 ltac:(lia)) as Hq. pose proof (Z.div_mod (Z.log2 n) 8 ltac:(lia)) as Hd.
  pose proof (Z.mod_pos_bound (Z.log2 n) 8 ltac:(lia)) as Hm.
  rewrite Z2Nat.id by lia. split; [|lia]. replace (Z.log2 n / 8 + 1 - 1) with (Z.log2 n / 8) by lia.
  change 256 with (2 ^ 8). rewrite <- !Z.pow_mul_r by lia. split.
  - transitivity (2 ^ Z.log2 n); [|done]. apply Z.pow_le_mono_r; lia.
  - eapply Z.lt_le_trans; [exact H2|]. apply Z.pow_le_mono_r; lia.
Qed.
Lemma be_bytes_S_head n z : be_bytes (S n) z = (z / 256 ^ Z.of_nat n) mod 256 :: be_bytes n (z mod 256 ^ Z.of_nat n).
Proof.
  revert z. induction n as [|n IH]; intros z.
  - cbn [be_bytes app]. change (256 ^ Z.of_nat 0) with 1. rewrite Z.div_1_r. done.
  - change (be_bytes (S (S n)) z) with (be_bytes (S n) (z / 256) ++ [z mod 256]). rewrite IH. cbn [app]. 
    change (be_bytes (S n) (z mod 256 ^ Z.of_nat (S n))) with (be_bytes n (z mod 256 ^ Z.of_nat (S n) / 256) ++ [(z mod 256 ^ Z.of_nat (S n)) mod 256]).
    pose proof (Z.pow_pos_nonneg 256 (Z.of_nat n) ltac:(lia) ltac:(lia)) as Hp.
    rewrite Nat2Z.inj_succ, Z.pow_succ_r by lia. f_equal; [|f_equal; [f_equal|]].
    + rewrite Z.div_div by lia. done.
    + rewrite Z.rem_mul_r by lia. rewrite (Z.mul_comm 256), Z.div_add by lia. rewrite (Z.div_small (z mod 256)) by (apply Z.mod_pos_bound; lia). lia.
    + rewrite Z.rem_mul_r by lia. f_equal. rewrite (Z.mul_comm 256), Z.mod_add by lia. rewrite Z.mod_mod by lia. done.
Qed.
Lemma der_read_long_spec n acc z rest : 0 <= acc -> 0 <= z < 256 ^ Z.of_nat n -> acc * 256 ^ Z.of_nat n + z < 2 ^ 31 ->
  128 <= acc * 256 ^ Z.of_nat n + z -> (0 < acc \/ 256 ^ (Z.of_nat n - 1) <= z) ->
  der_read_long n acc (be_bytes n z ++ rest) = Some (acc * 256 ^ Z.of_nat n + z, rest).
Proof.
  revert acc z. induction n as [|n IH]; intros acc z Ha Hz Hlt Hge Hpos.
  - change (256 ^ Z.of_nat 0) with 1 in *. cbn [der_read_long be_bytes app]. destruct (Z.ltb_spec acc 128); [lia|]. do 2 f_equal. lia.
  - rewrite be_bytes_S_head. cbn [app der_read_long]. 
    pose proof (Z.pow_pos_nonneg 256 (Z.of_nat n) ltac:(lia) ltac:(lia)) as Hp.
    rewrite Nat2Z.inj_succ, Z.pow_succ_r in * by lia. remember (256 ^ Z.of_nat n) as P eqn:EP.
    destruct (Z.geb_spec acc (2 ^ 23)); [nia|].
    assert (Hq : 0 <= z / P < 256) by (split; [apply Z.div_pos; lia|apply Z.div_lt_upper_bound; nia]).
    rewrite (Z.mod_small (z / P) 256) by lia. pose proof (Z.div_mod z P ltac:(lia)) as Hdm. pose proof (Z.mod_pos_bound z P ltac:(lia)) as Hm.
    destruct (Z.eqb_spec (acc * 256 + z / P) 0) as [E|E].
    { exfalso. replace (Z.succ (Z.of_nat n) - 1) with (Z.of_nat n) in Hpos by lia. nia. }
    rewrite IH; [|nia|lia|nia|nia|left; lia]. do 2 f_equal. nia.
Qed.
Lemma der_read_len_spec n rest : 0 <= n < 2 ^ 31 -> der_read_len (der_len n ++ rest) = Some (n, rest).
Proof.
  intros Hn. unfold der_len. destruct (Z.ltb_spec n 128) as [Hlt|Hge].
  - cbn [app der_read_len]. destruct (Z.ltb_spec n 128); [done|lia].
  - cbn [app der_read_len]. destruct (der_len_len_spec n Hge) as [[H1 H2] H3].
    destruct (Z.ltb_spec (128 + Z.of_nat (der_len_len n)) 128); [lia|]. destruct (Z.eqb_spec (128 + Z.of_nat (der_len_len n)) 128); [lia|].
    replace (Z.to_nat (128 + Z.of_nat (der_len_len n) - 128)) with (der_len_len n) by lia.
    rewrite der_read_long_spec; [|lia|lia|lia|lia|right; lia]. reflexivity.
Qed.
Lemma der_read_tlv tag c rest : Z.of_nat (length c) < 2 ^ 31 -> der_read tag (der_tlv tag c ++ rest) = Some (c, rest).
Proof.
  intros Hc. unfold der_read, der_tlv. cbn [app]. rewrite Z.eqb_refl, <- app_assoc, der_read_len_spec by lia.
  rewrite app_length. destruct (Z.leb_spec (Z.of_nat (length c)) (Z.of_nat (length c + length rest))); [|lia].
  rewrite Nat2Z.id, take_app, drop_app. done.
Qed.
Lemma der_tlv_nonempty tag c rest : der_tlv tag c ++ rest <> [].
Proof. done. Qed.
Lemma der_read_all_spec {A} (f : bytes -> option A) (enc : A -> bytes) (l : list A) fuel :
  (length l <= fuel)%nat ->
  Forall (fun a => f (enc a) = Some a /\ Z.of_nat (length (enc a)) < 2 ^ 31) l ->
  der_read_all f fuel (concat ((fun a => der_tlv tag_sequence (enc a)) <$> l)) = Some l.
Proof.
  revert fuel. induction l as [|a l IH]; intros fuel Hf H; [destruct fuel; done|]. apply Forall_cons in H. destruct H as [[H1 H2] H].
  destruct fuel as [|fuel]; [cbn in Hf; lia|]. rewrite fmap_cons. cbn [concat].
  change (der_read_all f (S fuel) (der_tlv tag_sequence (enc a) ++ concat ((fun a => der_tlv tag_sequence (enc a)) <$> l)))
    with (match der_read tag_sequence (der_tlv tag_sequence (enc a) ++ concat ((fun a => der_tlv tag_sequence (enc a)) <$> l)) with
      | Some (c, rest) =>
        match f c, der_read_all f fuel rest with Some a, Some l => Some (a :: l) | _, _ => None end
      | None => None
      end).
  rewrite der_read_tlv by done. rewrite H1, IH; [done|cbn in Hf; lia|done].
Qed.
Lemma der_tlv_length tag c : (length c < length (der_tlv tag c))%nat.
Proof. unfold der_tlv. cbn [length]. rewrite app_length. lia. Qed.
Lemma der_len_length n : 0 <= n < 2 ^ 31 -> (1 <= length (der_len n) <= 5)%nat.
Proof.
  intros Hn. unfold der_len. destruct (Z.ltb_spec n 128); [cbn; lia|]. cbn [length]. rewrite be_bytes_length.
  destruct (der_len_len_spec n ltac:(lia)) as [[H1 H2] H3]. split; [lia|].
  destruct (decide (5 <= der_len_len n)%nat); [|lia]. pose proof (Z.pow_le_mono_r 256 4 (Z.of_nat (der_len_len n) - 1)). lia.
Qed.
