(** Facts about the path functions. *)
From Verif Require Export Model_paths.
Local Open Scope Z_scope.

(** The number with the given base-f digits, least significant first *)
Fixpoint le_val (f : Z) (p : path) : Z := match p with [] => 0 | d :: p => Z.of_nat d + f * le_val f p end.
(** p is the base-f representation of n, without leading zeros *)
Definition digits_of (f n : Z) (p : path) : Prop :=
  le_val f p = n /\ Forall (fun d => Z.of_nat d < f) p /\ last p <> Some 0%nat.

Lemma le_val_nonneg f p : 0 <= f -> 0 <= le_val f p.
Proof. intros Hf. induction p as [|d p IH]; cbn [le_val]; nia. Qed.
Lemma le_val_app f p q : le_val f (p ++ q) = le_val f p + f ^ Z.of_nat (length p) * le_val f q.
Proof.
  induction p as [|d p IH]; cbn [app le_val length]; [rewrite Z.pow_0_r; lia|].
  rewrite IH, Nat2Z.inj_succ, Z.pow_succ_r by lia. ring.
Qed.
Lemma le_val_ub f p : 0 < f -> Forall (fun d => Z.of_nat d < f) p -> le_val f p < f ^ Z.of_nat (length p).
Proof.
  intros Hf H. induction H as [|d p Hd H IH]; cbn [le_val length]; [rewrite Z.pow_0_r; lia|].
  rewrite Nat2Z.inj_succ, Z.pow_succ_r by lia. nia.
Qed.
Lemma le_val_lb f p : 0 < f -> p <> [] -> last p <> Some 0%nat -> f ^ (Z.of_nat (length p) - 1) <= le_val f p.
Proof.
  intros Hf. induction p as [|d p IH]; [done|]. intros _ Hl. destruct p as [|d' p].
  - cbn in *. destruct d; [done|]. lia.
  - assert (H : f ^ (Z.of_nat (length (d' :: p)) - 1) <= le_val f (d' :: p)) by (apply IH; [done|exact Hl]).
    change (le_val f (d :: d' :: p)) with (Z.of_nat d + f * le_val f (d' :: p)).
    replace (Z.of_nat (length (d :: d' :: p)) - 1) with (Z.succ (Z.of_nat (length (d' :: p)) - 1)) by (cbn [length]; lia).
    rewrite Z.pow_succ_r by (cbn [length]; lia). nia.
Qed.
Lemma digits_pos f n p : 0 < f -> digits_of f n p -> (p = [] <-> n = 0).
Proof.
  intros Hf (H1 & H2 & H3). split; [intros ->; done|]. intros ->. destruct p as [|d p]; [done|]. exfalso.
  pose proof (le_val_lb f (d :: p) Hf ltac:(done) H3) as H. pose proof (Z.pow_pos_nonneg f (Z.of_nat (length (d :: p)) - 1) Hf ltac:(cbn [length]; lia)). lia.
Qed.
(** The number of digits is determined by the size of the number. *)
Lemma digits_length f n p : 2 <= f -> digits_of f n p -> forall k : nat, (f ^ Z.of_nat k <= n <-> (k < length p)%nat).
Proof.
  intros Hf (H1 & H2 & H3) k. pose proof (le_val_ub f p ltac:(lia) H2) as Hu. split; intros H.
  - destruct (decide (k < length p)%nat) as [|Hge]; [done|].
    pose proof (Z.pow_le_mono_r f (Z.of_nat (length p)) (Z.of_nat k)). lia.
  - assert (Hne : p <> []) by (intros ->; cbn in H; lia).
    pose proof (le_val_lb f p ltac:(lia) Hne H3). pose proof (Z.pow_le_mono_r f (Z.of_nat k) (Z.of_nat (length p) - 1)). lia.
Qed.
Lemma digits_unique f n p p' : 2 <= f -> digits_of f n p -> digits_of f n p' -> p = p'.
Proof.
  intros Hf. revert n p'. induction p as [|d p IH]; intros n p' H H'.
  - apply (digits_pos f n []) in H as E; [|lia]. assert (n = 0) by (apply E; done). apply (digits_pos f n p') in H' as E'; [|lia]. symmetry. apply E'. done.
  - destruct p' as [|d' p'].
    + apply (digits_pos f n []) in H' as E; [|lia]. assert (n = 0) by (apply E; done). apply (digits_pos f n (d :: p)) in H as E'; [|lia]. apply E'. done.
    + destruct H as (H1 & H2 & H3), H' as (H1' & H2' & H3'). apply Forall_cons in H2, H2'. destruct H2 as [Hd H2], H2' as [Hd' H2'].
      cbn [le_val] in H1, H1'. 
      assert (Hq : le_val f p = le_val f p' /\ Z.of_nat d = Z.of_nat d').
      { assert (Hq : le_val f p = le_val f p') by nia. split; [done|]. rewrite Hq in H1. lia. }
      destruct Hq as [Hq Hdd]. f_equal; [lia|]. apply (IH (le_val f p)).
      * split; [done|]. split; [done|]. destruct p; [done|exact H3].
      * split; [done|]. split; [done|]. destruct p'; [done|exact H3'].
Qed.

(** ** Dense ids *)
Lemma digit_loop_spec fuel f n : 2 <= f -> n < 2 ^ Z.of_nat fuel -> exists ds, digit_loop fuel f n = Ret ds /\ digits_of f (Z.max n 0) ds.
Proof.
  intros Hf. revert n. induction fuel as [|fuel IH]; intros n Hn; cbn [digit_loop].
  - destruct (Z.leb_spec n 0) as [Hle|Hgt]; [|cbn in Hn; lia]. exists []. rewrite Z.max_r by lia. done.
  - destruct (Z.leb_spec n 0) as [Hle|Hgt]; [exists []; rewrite Z.max_r by lia; done|].
    destruct (Z.eqb_spec f 0) as [|_]; [lia|].
    rewrite Nat2Z.inj_succ, Z.pow_succ_r in Hn by lia.
    pose proof (Z.mod_pos_bound n f ltac:(lia)) as Hm. pose proof (Z.div_mod n f ltac:(lia)) as Hdm.
    assert (Hq : 0 <= n / f) by (apply Z.div_pos; lia).
    destruct (IH (n / f)) as (ds & Hds & H1 & H2 & H3).
    { apply Z.div_lt_upper_bound; nia. }
    rewrite Hds. cbn [rbind]. eexists. split; [reflexivity|]. rewrite Z.max_l in H1 |- * by lia. split; [|split].
    + cbn [le_val]. rewrite H1, Z2Nat.id by lia. lia.
    + constructor; [rewrite Z2Nat.id; lia|done].
    + destruct ds as [|d ds]; [|exact H3]. cbn in *. intros E. injection E as E.
      assert (n mod f = 0) by lia. nia.
Qed.
Lemma digit_path_len_step fuel f L : 2 <= f -> 1 <= L -> (2 ^ (L + Z.of_nat fuel) > 10 ^ 9) -> (forall l, 0 <= l < L -> f ^ l <= 10 ^ 9) ->
  exists L' : nat, digit_path_len (S fuel) f L = Ret L' /\ f ^ Z.of_nat L' > 10 ^ 9 /\ (forall l, 0 <= l < Z.of_nat L' -> f ^ l <= 10 ^ 9).
Proof.
  intros Hf. revert L. induction fuel as [|fuel IH]; intros L HL H2 Hlow.
  - rewrite Z.add_0_r in H2. pose proof (Z.pow_le_mono_l 2 f L ltac:(lia)). cbn [digit_path_len].
    destruct (Z.gtb_spec (f ^ L) (10 ^ 9)); [|lia]. exists (Z.to_nat L). rewrite Z2Nat.id by lia. split; [done|]. split; [lia|done].
  - change (digit_path_len (S (S fuel)) f L) with (if f ^ L >? 10 ^ 9 then Ret (Z.to_nat L) else digit_path_len (S fuel) f (L + 1)).
    destruct (Z.gtb_spec (f ^ L) (10 ^ 9)) as [Hgt|Hle].
    + exists (Z.to_nat L). rewrite Z2Nat.id by lia. split; [done|]. split; [lia|done].
    + apply IH; [lia| |].
      * replace (L + 1 + Z.of_nat fuel) with (L + Z.of_nat (S fuel)) by lia. done.
      * intros l Hl. destruct (decide (l = L)) as [->|]; [lia|]. apply Hlow. lia.
Qed.
Lemma digit_path_len_spec fuel f : 2 <= f -> (30 <= fuel)%nat ->
  exists L : nat, DigitPathLen_fuel fuel f = Ret L /\ f ^ Z.of_nat L > 10 ^ 9 /\ (forall l, 0 <= l < Z.of_nat L -> f ^ l <= 10 ^ 9).
Proof.
  intros Hf Hfu. unfold DigitPathLen_fuel. destruct fuel as [|fuel]; [lia|]. apply digit_path_len_step; [done|lia| |].
  - pose proof (Z.pow_le_mono_r 2 30 (1 + Z.of_nat fuel) ltac:(lia) ltac:(lia)). lia.
  - intros l Hl. assert (l = 0) as -> by lia. lia.
Qed.
Lemma digit_path_len_small fuel f : 0 <= f <= 1 -> DigitPathLen_fuel fuel f = Hang.
Proof.
  intros Hf. unfold DigitPathLen_fuel. assert (H : 1 <= 1) by lia. revert H. generalize 1 at 2 3 as L.
  induction fuel as [|fuel IH]; intros L HL; [done|]. cbn [digit_path_len].
  assert (f ^ L <= 1).
  { assert (f = 0 \/ f = 1) as [->| ->] by lia; [rewrite Z.pow_0_l by lia; lia|rewrite Z.pow_1_l by lia; lia]. }
  destruct (Z.gtb_spec (f ^ L) (10 ^ 9)); [lia|]. apply IH. lia.
Qed.
Lemma path_len_ge2 f (L : nat) : 2 <= f < 65536 -> f ^ Z.of_nat L > 10 ^ 9 -> (2 <= L)%nat.
Proof.
  intros Hf H. destruct L as [|[|L]]; [cbn in H; lia| |lia]. change (Z.of_nat 1) with 1 in H. rewrite Z.pow_1_r in H. lia.
Qed.
Lemma ParseInt32_range s n : ParseInt32 s = Some n -> - 2 ^ 31 <= n < 2 ^ 31.
Proof. unfold ParseInt32. destruct (parse_int 10 s); [|done]. destruct (_ && _) eqn:E; [|done]. intros [= <-]. apply andb_prop in E. lia. Qed.
(** nine characters hold numbers below 10^9 *)
Lemma parse_digits_bound base acc s n : 0 < base -> 0 <= acc -> parse_digits base acc s = Some n ->
  0 <= n /\ n < (acc + 1) * base ^ Z.of_nat (String.length s).
Proof.
  intros Hb. revert acc. induction s as [|a s IH]; intros acc Ha H; cbn [parse_digits String.length] in *.
  - injection H as <-. cbn. lia.
  - destruct (Z.ltb_spec (char_val a) base) as [Hlt|]; [|done].
    assert (0 <= char_val a) by (unfold char_val; repeat case_match; lia).
    apply IH in H as [H1 H2]; [|nia]. split; [done|]. rewrite Nat2Z.inj_succ, Z.pow_succ_r by lia.
    pose proof (Z.pow_pos_nonneg base (Z.of_nat (String.length s)) Hb ltac:(lia)). nia.
Qed.
Lemma parse_nat_bound base s n : 0 < base -> parse_nat base s = Some n -> 0 <= n < base ^ Z.of_nat (String.length s).
Proof.
  intros Hb H. unfold parse_nat in H. destruct s; [done|]. apply parse_digits_bound in H; [|done|lia]. lia.
Qed.
Lemma parse_int_bound base s n : 0 < base -> parse_int base s = Some n -> n < base ^ Z.of_nat (String.length s).
Proof.
  intros Hb H. unfold parse_int in H. destruct s as [|a s]; [done|].
  assert (Hle : base ^ Z.of_nat (String.length s) <= base ^ Z.of_nat (String.length (String a s))).
  { apply Z.pow_le_mono_r; [lia|cbn [String.length]; lia]. }
  destruct (_ =? 43); [apply parse_nat_bound in H; lia|]. destruct (_ =? 45).
  - destruct (parse_nat base s) as [m|] eqn:E; [|done]. cbn in H. injection H as <-. apply parse_nat_bound in E; [|done].
    pose proof (Z.pow_pos_nonneg base (Z.of_nat (String.length (String a s))) Hb ltac:(lia)). lia.
  - apply parse_nat_bound in H; lia.
Qed.

Lemma digit_path_spec f s n : 2 <= f < 65536 -> String.length s = 9%nat -> ParseInt32 s = Some n ->
  exists ds L, digits_of f (Z.max n 0) ds /\ DigitPathLen f = Ret L /\ f ^ Z.of_nat L > 10 ^ 9 /\ (forall l, 0 <= l < Z.of_nat L -> f ^ l <= 10 ^ 9) /\
    (length ds <= L)%nat /\
    digit_path f s = Ret (if (length ds =? L)%nat then ds else ds ++ [0%nat]).
Proof.
  intros Hf Hs Hn. unfold digit_path. rewrite Hs. cbn [Nat.eqb]. rewrite Hn.
  pose proof (ParseInt32_range s n Hn) as Hr.
  destruct (digit_loop_spec 31 f n) as (ds & Hds & Hd); [lia|change (Z.of_nat 31) with 31; lia|].
  destruct (digit_path_len_spec 30 f) as (L & HL & HL1 & HL2); [lia|lia|].
  exists ds, L. rewrite Hds. cbn [rbind]. unfold DigitPathLen. rewrite HL. cbn [rbind]. split_and!; try done.
  assert (Hlt : n < 10 ^ 9).
  { unfold ParseInt32 in Hn. destruct (parse_int 10 s) as [m|] eqn:E; [|done]. apply parse_int_bound in E; [|lia]. rewrite Hs in E.
    destruct (_ && _); [|done]. injection Hn as <-. exact E. }
  destruct (decide (length ds <= L)%nat) as [|Hgt]; [done|]. exfalso.
  assert (f ^ Z.of_nat L <= Z.max n 0) by (apply (digits_length f _ ds); [lia|done|lia]). lia.
Qed.

(** n in nine decimal digits *)
Fixpoint dec_string (w : nat) (n : Z) : string :=
  match w with O => "" | S w => String (Ascii.ascii_of_N (Z.to_N (48 + (n / 10 ^ Z.of_nat w) mod 10))) (dec_string w n) end.
Lemma dec_string_length w n : String.length (dec_string w n) = w.
Proof. induction w as [|w IH]; [done|]. cbn [dec_string String.length]. rewrite IH. done. Qed.
Lemma byte_of_ascii_of_N z : 0 <= z < 256 -> byte_of_ascii (Ascii.ascii_of_N (Z.to_N z)) = z.
Proof. intros H. unfold byte_of_ascii. rewrite Ascii.N_ascii_embedding by lia. lia. Qed.
Lemma char_val_dec d : 0 <= d < 10 -> char_val (Ascii.ascii_of_N (Z.to_N (48 + d))) = d.
Proof.
  intros H. unfold char_val. rewrite byte_of_ascii_of_N by lia. destruct (Z.leb_spec 48 (48 + d)); [|lia]. destruct (Z.leb_spec (48 + d) 57); [|lia].
  cbn [andb]. lia.
Qed.
Lemma parse_dec_string w n acc : 0 <= acc -> parse_digits 10 acc (dec_string w n) = Some (acc * 10 ^ Z.of_nat w + n mod 10 ^ Z.of_nat w).
Proof.
  revert acc. induction w as [|w IH]; intros acc Ha; cbn [dec_string parse_digits].
  - change (10 ^ Z.of_nat 0) with 1. rewrite Z.mod_1_r. f_equal. lia.
  - pose proof (Z.mod_pos_bound (n / 10 ^ Z.of_nat w) 10 ltac:(lia)) as Hm. rewrite char_val_dec by lia.
    destruct (Z.ltb_spec ((n / 10 ^ Z.of_nat w) mod 10) 10); [|lia]. rewrite IH by lia. f_equal.
    pose proof (Z.pow_pos_nonneg 10 (Z.of_nat w) ltac:(lia) ltac:(lia)) as Hp.
    rewrite Nat2Z.inj_succ, Z.pow_succ_r by lia. rewrite (Z.mul_comm 10 (10 ^ Z.of_nat w)), Z.rem_mul_r by lia. ring.
Qed.
Lemma parse_dec9 n : 0 <= n < 10 ^ 9 -> ParseInt32 (dec_string 9 n) = Some n.
Proof.
  intros Hn. unfold ParseInt32, parse_int. 
  assert (E : parse_nat 10 (dec_string 9 n) = Some n).
  { unfold parse_nat. change (dec_string 9 n) with (String (Ascii.ascii_of_N (Z.to_N (48 + (n / 10 ^ Z.of_nat 8) mod 10))) (dec_string 8 n)) at 1.
    cbv iota. rewrite parse_dec_string by lia. f_equal. rewrite Z.mod_small by (change (10 ^ Z.of_nat 9) with (10 ^ 9); lia). lia. }
  change (dec_string 9 n) with (String (Ascii.ascii_of_N (Z.to_N (48 + (n / 10 ^ Z.of_nat 8) mod 10))) (dec_string 8 n)) at 1.
  cbv iota. pose proof (Z.mod_pos_bound (n / 10 ^ Z.of_nat 8) 10 ltac:(lia)) as Hm. rewrite byte_of_ascii_of_N by lia.
  destruct (Z.eqb_spec (48 + (n / 10 ^ Z.of_nat 8) mod 10) 43); [lia|]. destruct (Z.eqb_spec (48 + (n / 10 ^ Z.of_nat 8) mod 10) 45); [lia|].
  change (String _ (dec_string 8 n)) with (dec_string 9 n). rewrite E. destruct (Z.leb_spec (- 2 ^ 31) n); [|lia]. destruct (Z.ltb_spec n (2 ^ 31)); [|lia]. done.
Qed.

(** ** Hexadecimal ids *)
Lemma hex_digit_loop_spec fuel f n : 2 <= f -> 0 <= n < 2 ^ Z.of_nat fuel -> exists ds, hex_digit_loop fuel f n = Ret ds /\ digits_of f n ds.
Proof.
  intros Hf. revert n. induction fuel as [|fuel IH]; intros n Hn; cbn [hex_digit_loop].
  - destruct (Z.eqb_spec n 0) as [->|Hne]; [exists []; done|cbn in Hn; lia].
  - destruct (Z.eqb_spec n 0) as [->|Hne]; [exists []; done|].
    rewrite Nat2Z.inj_succ, Z.pow_succ_r in Hn by lia.
    pose proof (Z.mod_pos_bound n f ltac:(lia)) as Hm. pose proof (Z.div_mod n f ltac:(lia)) as Hdm.
    assert (Hq : 0 <= n / f) by (apply Z.div_pos; lia).
    destruct (IH (n / f)) as (ds & Hds & H1 & H2 & H3).
    { split; [done|]. apply Z.div_lt_upper_bound; nia. }
    rewrite Hds. cbn [rbind]. eexists. split; [reflexivity|]. split; [|split].
    + cbn [le_val]. rewrite H1, Z2Nat.id by lia. lia.
    + constructor; [rewrite Z2Nat.id; lia|done].
    + destruct ds as [|d ds]; [|exact H3]. cbn in *. intros E. injection E as E.
      assert (n mod f = 0) by lia. nia.
Qed.
Lemma hex_digit_loop_neg fuel f n : 2 <= f -> n < 0 -> hex_digit_loop fuel f n = Hang.
Proof.
  intros Hf. revert n. induction fuel as [|fuel IH]; intros n Hn; cbn [hex_digit_loop]; destruct (Z.eqb_spec n 0); try lia; [done|].
  rewrite IH; [done|]. apply Z.div_lt_upper_bound; lia.
Qed.
Lemma convert_spec s f n : 2 <= f -> parse_int 16 s = Some n -> 0 <= n -> exists ds, convertPathWithFanout s f = Ret ds /\ digits_of f n ds.
Proof.
  intros Hf Hs Hn. unfold convertPathWithFanout. rewrite Hs, Z.abs_eq by done. apply hex_digit_loop_spec; [done|]. split; [done|].
  destruct (decide (n = 0)) as [->|Hne]; [cbn; lia|]. pose proof (Z.log2_spec n ltac:(lia)). pose proof (Z.log2_nonneg n).
  rewrite Nat2Z.inj_add, Z2Nat.id by lia. lia.
Qed.
Lemma convert_inv s f p : 2 <= f -> convertPathWithFanout s f = Ret p -> exists n, parse_int 16 s = Some n /\ 0 <= n /\ digits_of f n p.
Proof.
  intros Hf H. unfold convertPathWithFanout in H. destruct (parse_int 16 s) as [n|] eqn:E; [|done]. exists n. split; [done|].
  destruct (decide (0 <= n)) as [Hn|Hn]; [|rewrite hex_digit_loop_neg in H by lia; done]. split; [done|].
  destruct (convert_spec s f n Hf E Hn) as (ds & Hds & Hd). unfold convertPathWithFanout in Hds. rewrite E, H in Hds. injection Hds as ->. done.
Qed.
Lemma hex_char_val d : 0 <= d < 16 -> char_val (hex_char d) = d.
Proof.
  intros H. unfold hex_char, char_val. destruct (Z.ltb_spec d 10); rewrite byte_of_ascii_of_N by lia.
  - destruct (Z.leb_spec 48 (48 + d)); [|lia]. destruct (Z.leb_spec (48 + d) 57); [|lia]. cbn [andb]. lia.
  - destruct (Z.leb_spec (87 + d) 57); [lia|]. rewrite andb_false_r. destruct (Z.leb_spec 97 (87 + d)); [|lia]. destruct (Z.leb_spec (87 + d) 102); [|lia]. cbn [andb]. lia.
Qed.
Lemma parse_hex_string bs acc : wf_bytes bs -> 0 <= acc -> 
  parse_digits 16 acc (hex_string bs) = Some (fold_left (fun acc b => acc * 256 + b) bs acc).
Proof.
  intros H. revert acc. induction H as [|b bs Hb H IH]; intros acc Ha; [done|]. cbn [hex_string parse_digits fold_left]. unfold wf_byte in Hb.
  pose proof (Z.mod_pos_bound b 16 ltac:(lia)) as Hm. assert (0 <= b / 16 < 16) as Hq by (split; [apply Z.div_pos; lia|apply Z.div_lt_upper_bound; lia]).
  rewrite !hex_char_val by lia. destruct (Z.ltb_spec (b / 16) 16); [|lia]. destruct (Z.ltb_spec (b mod 16) 16); [|lia].
  rewrite IH by nia. do 2 f_equal. pose proof (Z.div_mod b 16 ltac:(lia)). lia.
Qed.
(** A hash is always a valid non-negative hexadecimal number. *)
Lemma parse_hash {C : Curve} s : parse_int 16 (hash (C:=C) s) = Some (be_val (sha256 C (string_bytes s))).
Proof.
  unfold hash. pose proof (sha256_len C (string_bytes s)) as Hl. pose proof (sha256_wf C (string_bytes s)) as Hw.
  destruct (sha256 C (string_bytes s)) as [|b bs]; [done|]. pose proof (parse_hex_string (b :: bs) 0 Hw ltac:(lia)) as Hp.
  unfold parse_int. cbn [hex_string] in *. apply Forall_cons in Hw. destruct Hw as [Hb Hw]. unfold wf_byte in Hb.
  assert (0 <= b / 16 < 16) as Hq by (split; [apply Z.div_pos; lia|apply Z.div_lt_upper_bound; lia]).
  assert (Hc : forall d, 0 <= d < 16 -> byte_of_ascii (hex_char d) <> 43 /\ byte_of_ascii (hex_char d) <> 45).
  { intros d Hd. unfold hex_char. destruct (Z.ltb_spec d 10); rewrite byte_of_ascii_of_N by lia; lia. }
  destruct (Hc _ Hq) as [H1 H2]. destruct (Z.eqb_spec (byte_of_ascii (hex_char (b / 16))) 43); [lia|].
  destruct (Z.eqb_spec (byte_of_ascii (hex_char (b / 16))) 45); [lia|]. unfold parse_nat. exact Hp.
Qed.
