(** Properties C31-C35: paths of dense (decimal) and hexadecimal ids.

    Specification: [le_val f p] (Paths_facts.v) is the number whose base-f digits, least significant first, are p;
    [digits_of f n p] says that p is the base-f representation of n without leading zeros. *)
From Coq Require Import Ascii.
From Verif Require Import Paths_facts Toy.
Local Open Scope Z_scope.

(** ** C31: dense ids *)
Lemma DigitPath_inv f fn : DigitPath f = Ret fn -> fn = digit_path f.
Proof. unfold DigitPath. intros H. apply rbind_inv in H as (ok & _ & H). destruct ok; [|done]. cbn in H. congruence. Qed.

Lemma IsPowerOfTwo_pow2Z k : (1 <= k < 16)%nat -> IsPowerOfTwo (2 ^ Z.of_nat k) = Ret true.
Proof.
  intros Hk. rewrite <- (IsPowerOfTwo_pow2 k Hk). unfold uint16. rewrite Nat2Z.inj_pow. change (Z.of_nat 2) with 2.
  rewrite Z.mod_small; [done|]. split; [lia|apply Z.pow_lt_mono_r; lia].
Qed.
Lemma DigitPath_pow2 k : (1 <= k < 16)%nat -> DigitPath (2 ^ Z.of_nat k - 1) = Ret (digit_path (2 ^ Z.of_nat k - 1)).
Proof.
  intros Hk. unfold DigitPath. replace (2 ^ Z.of_nat k - 1 + 1) with (2 ^ Z.of_nat k) by lia.
  rewrite Z.mod_small by (split; [lia|apply Z.pow_lt_mono_r; lia]). rewrite IsPowerOfTwo_pow2Z by lia. done.
Qed.

(** The path of a nine-character id denoting n >= 0: the digits of n, followed by one 0 when there are fewer than
    L = DigitPathLen f of them. *)
Theorem C31_dense_path f fn s n : 2 <= f < 65536 -> DigitPath f = Ret fn ->
  String.length s = 9%nat -> ParseInt32 s = Some n -> 0 <= n ->
  exists ds L, digits_of f n ds /\ DigitPathLen f = Ret L /\ (length ds <= L)%nat /\
    fn s = Ret (if (length ds =? L)%nat then ds else ds ++ [0%nat]).
Proof.
  intros Hf HP Hs Hn Hn0. rewrite (DigitPath_inv f fn HP).
  destruct (digit_path_spec f s n Hf Hs Hn) as (ds & L & H1 & H2 & _ & _ & H3 & H4). rewrite Z.max_l in H1 by lia.
  exists ds, L. done.
Qed.
(** Every entry is a child index, and the path, read as a number, gives back the id's value. *)
Theorem C31_value f fn s n p : 2 <= f < 65536 -> DigitPath f = Ret fn -> ParseInt32 s = Some n -> 0 <= n -> fn s = Ret p ->
  le_val f p = n /\ Forall (fun d => Z.of_nat d < f) p.
Proof.
  intros Hf HP Hn Hn0 Hp.
  assert (Hs : String.length s = 9%nat).
  { rewrite (DigitPath_inv f fn HP) in Hp. unfold digit_path in Hp. destruct (String.length s =? 9)%nat eqn:E; [|done]. by apply Nat.eqb_eq. }
  destruct (C31_dense_path f fn s n Hf HP Hs Hn Hn0) as (ds & L & (H1 & H2 & H3) & _ & _ & H4). rewrite H4 in Hp.
  destruct (length ds =? L)%nat; injection Hp as <-; [done|]. split.
  - rewrite le_val_app. cbn [le_val]. lia.
  - apply Forall_app. split; [done|]. constructor; [lia|done].
Qed.
(** Ids with different values have different paths. *)
Theorem C31_injective f fn s n s' n' p : 2 <= f < 65536 -> DigitPath f = Ret fn ->
  ParseInt32 s = Some n -> 0 <= n -> ParseInt32 s' = Some n' -> 0 <= n' ->
  fn s = Ret p -> fn s' = Ret p -> n = n'.
Proof.
  intros Hf HP Hn H0 Hn' H0' H H'. apply (C31_value f fn s n) in H as [<- _]; try done. apply (C31_value f fn s' n') in H' as [<- _]; done.
Qed.
(** When the path has the full length. *)
Theorem C31_length f fn s n : 2 <= f < 65536 -> DigitPath f = Ret fn ->
  String.length s = 9%nat -> ParseInt32 s = Some n -> 0 <= n ->
  exists p L, fn s = Ret p /\ DigitPathLen f = Ret L /\ (2 <= L)%nat /\ (length p <= L)%nat /\ (length p = L <-> f ^ (Z.of_nat L - 2) <= n).
Proof.
  intros Hf HP Hs Hn Hn0. rewrite (DigitPath_inv f fn HP).
  destruct (digit_path_spec f s n Hf Hs Hn) as (ds & L & H1 & H2 & HL & _ & H3 & H4). rewrite Z.max_l in H1 by lia.
  pose proof (path_len_ge2 f L Hf HL) as HL2.
  exists (if (length ds =? L)%nat then ds else ds ++ [0%nat]), L. split; [done|]. split; [done|]. split; [done|].
  pose proof (digits_length f n ds ltac:(lia) H1 (L - 2)) as Hl. rewrite Nat2Z.inj_sub in Hl by lia. rewrite Hl.
  destruct (Nat.eqb_spec (length ds) L).
  - split; [lia|]. split; lia.
  - rewrite app_length. cbn [length]. split; [lia|]. split; lia.
Qed.
(** Anything else is refused: other lengths, and strings that are not int32 decimals. *)
Theorem C31_rejects f fn s : DigitPath f = Ret fn -> String.length s <> 9%nat \/ ParseInt32 s = None -> fn s = Panic.
Proof.
  intros HP H. rewrite (DigitPath_inv f fn HP). unfold digit_path. destruct (Nat.eqb_spec (String.length s) 9); [|done].
  destruct H as [|H]; [done|]. rewrite H. done.
Qed.
(** Every number below 10^9 is the value of a nine-character id. *)
Theorem C31_every_number n : 0 <= n < 10 ^ 9 -> exists s, String.length s = 9%nat /\ ParseInt32 s = Some n.
Proof. intros H. exists (dec_string 9 n). split; [apply dec_string_length|apply parse_dec9; done]. Qed.
(** The hypotheses can be met: fanout 7, id 123456789. *)
Example C31_nonvacuous : exists fn, DigitPath 7 = Ret fn /\ String.length "123456789" = 9%nat /\
  ParseInt32 "123456789" = Some 123456789 /\ fn "123456789" = Ret [1;2;2;6;3;2;6;2;0;3;0]%nat /\ DigitPathLen 7 = Ret 11%nat.
Proof. exists (digit_path 7). split; [exact (DigitPath_pow2 3 ltac:(lia))|]. split; [done|]. split; [done|]. split; done. Qed.

(** ** C32: the path length *)
Theorem C32_path_length f : 2 <= f -> exists L, DigitPathLen f = Ret L /\
  f ^ Z.of_nat L > 10 ^ 9 /\ (forall L', (L' < L)%nat -> f ^ Z.of_nat L' <= 10 ^ 9).
Proof.
  intros Hf. destruct (digit_path_len_spec 30 f) as (L & H1 & H2 & H3); [done|lia|]. exists L. split; [done|]. split; [done|].
  intros L' HL'. apply H3. lia.
Qed.
(** For fanouts 0 and 1 it does not return, whatever the number of iterations. *)
Theorem C32_small_fanouts f : 0 <= f <= 1 -> forall iterations, DigitPathLen_fuel iterations f = Hang.
Proof. intros Hf n. by apply digit_path_len_small. Qed.
(** The bound on the iterations in the model is immaterial for the other fanouts. *)
Theorem C32_iterations f n : 2 <= f -> (30 <= n)%nat -> DigitPathLen_fuel n f = DigitPathLen f.
Proof.
  intros Hf Hn. destruct (digit_path_len_spec n f) as (L & H1 & H2 & H3); [done|lia|].
  destruct (digit_path_len_spec 30 f) as (L' & H1' & H2' & H3'); [done|lia|]. unfold DigitPathLen. rewrite H1, H1'. f_equal.
  destruct (decide (L < L')%nat); [specialize (H3' (Z.of_nat L)); lia|]. destruct (decide (L' < L)%nat); [specialize (H3 (Z.of_nat L')); lia|]. lia.
Qed.
Example C32_nonvacuous : DigitPathLen 7 = Ret 11%nat /\ DigitPathLen 32767 = Ret 2%nat /\ DigitPathLen 3 = Ret 19%nat.
Proof. done. Qed.

(** ** C33: overlaps *)
(** All ids with a value <= 0 share the one-step path [0]. *)
Theorem C33_nonpositive f fn s n : 2 <= f < 65536 -> DigitPath f = Ret fn ->
  String.length s = 9%nat -> ParseInt32 s = Some n -> n <= 0 -> fn s = Ret [0%nat].
Proof.
  intros Hf HP Hs Hn Hn0. rewrite (DigitPath_inv f fn HP).
  destruct (digit_path_spec f s n Hf Hs Hn) as (ds & L & H1 & H2 & HL & _ & H3 & H4). rewrite Z.max_r in H1 by lia.
  pose proof (path_len_ge2 f L Hf HL). apply (digits_pos f 0 ds ltac:(lia)) in H1 as E. assert (ds = []) as -> by (apply E; done).
  rewrite H4. destruct L as [|L]; [lia|]. done.
Qed.
(** The paths of the ids with values 0 and f: the first is a proper prefix of the second. *)
Lemma dense_path_of f fn n ds : 2 <= f < 65536 -> DigitPath f = Ret fn -> 0 <= n < 10 ^ 9 -> digits_of f n ds ->
  exists t, fn (dec_string 9 n) = Ret (ds ++ t).
Proof.
  intros Hf HP Hn Hd. destruct (C31_dense_path f fn (dec_string 9 n) n Hf HP) as (ds' & L & H1 & _ & _ & H3); [apply dec_string_length|by apply parse_dec9|lia|].
  rewrite (digits_unique f n ds ds' ltac:(lia) Hd H1) in *. rewrite H3. destruct (_ =? _)%nat; [exists []; rewrite app_nil_r|exists [0%nat]]; done.
Qed.
Theorem C33_zero_is_prefix f fn : 2 <= f < 65536 -> DigitPath f = Ret fn ->
  exists s' t, String.length s' = 9%nat /\ ParseInt32 s' = Some f /\ fn "000000000" = Ret [0%nat] /\ fn s' = Ret ([0%nat] ++ t) /\ t <> [].
Proof.
  intros Hf HP. destruct (dense_path_of f fn f [0;1]%nat Hf HP) as [t Ht]; [lia| |].
  - split; [cbn [le_val]; lia|]. split; [|done]. repeat constructor; lia.
  - exists (dec_string 9 f), ([1%nat] ++ t). split; [apply dec_string_length|]. split; [apply parse_dec9; lia|].
    split; [|split; [exact Ht|done]]. apply (C33_nonpositive f fn "000000000" 0 Hf HP); done.
Qed.
(** Non-zero ids overlap too, unless the full length is 2: here 1 and 1 + f^2. *)
Theorem C33_one_is_prefix f fn L : 2 <= f < 65536 -> DigitPath f = Ret fn -> DigitPathLen f = Ret L -> (3 <= L)%nat ->
  exists s s' t, String.length s = 9%nat /\ ParseInt32 s = Some 1 /\ String.length s' = 9%nat /\ ParseInt32 s' = Some (1 + f * f) /\
    fn s = Ret [1;0]%nat /\ fn s' = Ret ([1;0]%nat ++ t) /\ t <> [].
Proof.
  intros Hf HP HL HL3. destruct (C32_path_length f ltac:(lia)) as (L' & HL' & Hgt & Hle). rewrite HL in HL'. injection HL' as <-.
  assert (Hff : f * f <= 10 ^ 9 - 2).
  { specialize (Hle 2%nat ltac:(lia)). change (Z.of_nat 2) with 2 in Hle. rewrite Z.pow_2_r in Hle.
    assert (f <= 31622) by (apply Z.lt_succ_r; apply Z.square_lt_simpl_nonneg; lia). nia. }
  destruct (dense_path_of f fn (1 + f * f) [1;0;1]%nat Hf HP) as [t Ht]; [nia| |].
  - split; [cbn [le_val]; lia|]. split; [|done]. repeat constructor; lia.
  - exists (dec_string 9 1), (dec_string 9 (1 + f * f)), ([1%nat] ++ t).
    split; [apply dec_string_length|]. split; [apply parse_dec9; lia|]. split; [apply dec_string_length|]. split; [apply parse_dec9; nia|].
    split; [|split; [exact Ht|done]].
    destruct (C31_dense_path f fn (dec_string 9 1) 1 Hf HP) as (ds & L' & H1 & H2 & _ & H3); [apply dec_string_length|apply parse_dec9; lia|lia|].
    assert (ds = [1%nat]) as ->.
    { apply (digits_unique f 1); [lia|done|]. split; [cbn [le_val]; lia|]. split; [|done]. repeat constructor; lia. }
    rewrite HL in H2. injection H2 as <-. rewrite H3. destruct (Nat.eqb_spec (length [1%nat]) L); [cbn [length] in *; lia|done].
Qed.
(** A leading + changes nothing. *)
Lemma parse_digits_zero base s : 0 < base -> parse_digits base 0 (String "0"%char s) = parse_digits base 0 s.
Proof. intros Hb. cbn [parse_digits]. change (char_val "0"%char) with 0. destruct (Z.ltb_spec 0 base); [done|lia]. Qed.
Theorem C33_plus_sign f s : 2 <= f < 65536 -> s <> EmptyString -> forall fn, DigitPath f = Ret fn -> fn (String "+"%char s) = fn (String "0"%char s).
Proof.
  intros Hf Hs fn HP. rewrite (DigitPath_inv f fn HP). unfold digit_path. cbn [String.length].
  assert (E : ParseInt32 (String "+"%char s) = ParseInt32 (String "0"%char s)); [|rewrite E; done].
  unfold ParseInt32. f_equal. unfold parse_int. change (byte_of_ascii "+"%char =? 43) with true. change (byte_of_ascii "0"%char =? 43) with false.
  change (byte_of_ascii "0"%char =? 45) with false. cbv iota. unfold parse_nat. destruct s as [|a s]; [done|]. rewrite parse_digits_zero by lia. done.
Qed.
(** Ids from 10^8 on: full length for the fanouts 7, 15, ... *)
Theorem C33_benchmark_ids k fn s n : (3 <= k < 16)%nat -> DigitPath (2 ^ Z.of_nat k - 1) = Ret fn ->
  String.length s = 9%nat -> ParseInt32 s = Some n -> 10 ^ 8 <= n ->
  exists p, fn s = Ret p /\ DigitPathLen (2 ^ Z.of_nat k - 1) = Ret (length p).
Proof.
  intros Hk HP Hs Hn Hn0.
  assert (Hf : 2 <= 2 ^ Z.of_nat k - 1 < 65536).
  { pose proof (Z.pow_le_mono_r 2 3 (Z.of_nat k) ltac:(lia) ltac:(lia)). pose proof (Z.pow_lt_mono_r 2 (Z.of_nat k) 16 ltac:(lia) ltac:(lia) ltac:(lia)). lia. }
  destruct (C31_length _ fn s n Hf HP Hs Hn ltac:(lia)) as (p & L & H1 & H2 & _ & _ & H3). exists p. split; [done|].
  rewrite H2. f_equal. symmetry. apply H3. transitivity (10 ^ 8); [|done]. clear -H2 Hk.
  assert (Hc : In k [3;4;5;6;7;8;9;10;11;12;13;14;15]%nat) by (cbn; lia).
  cbn [In] in Hc. repeat (destruct Hc as [<-|Hc]; [vm_compute in H2; injection H2 as <-; vm_compute; congruence|]). done.
Qed.
(** ... but not for fanout 3. *)
Theorem C33_benchmark_fanout_3 : exists fn p, DigitPath 3 = Ret fn /\ fn "100000000" = Ret p /\ DigitPathLen 3 = Ret 19%nat /\ length p = 18%nat.
Proof. exists (digit_path 3). eexists. split; [exact (DigitPath_pow2 2 ltac:(lia))|]. split; [vm_compute; reflexivity|]. split; done. Qed.
Example C33_nonvacuous : exists fn, DigitPath 7 = Ret fn /\ fn "-12345678" = Ret [0%nat] /\ fn "000000000" = Ret [0%nat] /\
  fn "000000007" = Ret [0;1;0]%nat /\ fn "+00000007" = Ret [0;1;0]%nat /\ fn "000000001" = Ret [1;0]%nat /\ fn "000000050" = Ret [1;0;1;0]%nat.
Proof. exists (digit_path 7). split; [exact (DigitPath_pow2 3 ltac:(lia))|]. done. Qed.

(** ** C34, C35: hexadecimal ids *)
Section Hex.
  Context {C : Curve}.
  Lemma HexId2Path_inv f g : HexId2PathForFanOut (C:=C) f = Ret g -> exists L, hex_path_length f = Some L /\ g = (fun fuel s => hex_path (C:=C) fuel f L s).
  Proof.
    unfold HexId2PathForFanOut. intros H. apply rbind_inv in H as (ok & _ & H). destruct ok; [|done]. cbn in H.
    destruct (hex_path_length f) as [L|]; [|done]. exists L. split; [done|]. congruence.
  Qed.
  (** the tabulated fanouts and lengths *)
  Definition hex_table : list (Z * nat) :=
    [(3,162%nat);(7,91%nat);(15,66%nat);(31,52%nat);(63,43%nat);(127,37%nat);(255,32%nat);(511,29%nat);(1023,26%nat);(2047,24%nat);(4095,22%nat);(8191,20%nat);(16383,19%nat)].
  Lemma hex_table_in f L : hex_path_length f = Some L -> In (f, L) hex_table.
  Proof.
    intros H. unfold hex_path_length in H.
    repeat match type of H with context [match ?x with _ => _ end] => destruct x; try discriminate H end; injection H as <-; unfold hex_table; cbn [In]; tauto.
  Qed.
  Lemma hex_table_ge f L : hex_path_length f = Some L -> 3 <= f /\ (19 <= L)%nat.
  Proof. intros H. apply hex_table_in in H. cbn [In hex_table] in H. repeat (destruct H as [H|H]; [injection H as <- <-; lia|]). done. Qed.

  Lemma hex_path_inv fuel f L s p : 2 <= f -> hex_path (C:=C) fuel f L s = Ret p -> length p = L /\ exists n, 0 <= n /\ digits_of f n p.
  Proof.
    intros Hf. revert s. induction fuel as [|fuel IH]; intros s H; [done|]. cbn [hex_path] in H. apply rbind_inv in H as (q & Hq & H).
    destruct (Nat.eqb_spec (length q) L); [|by apply (IH (hash (C:=C) s))]. injection H as ->. split; [done|].
    apply convert_inv in Hq as (n & _ & H1 & H2); [|done]. exists n. done.
  Qed.

  (** Whatever the id, and however many rehashes it took, a returned path has the tabulated length, entries below the
      fanout and a non-zero last entry. *)
  Theorem C34_fixed_length f g : HexId2PathForFanOut (C:=C) f = Ret g ->
    exists L, In (f, L) hex_table /\
    forall fuel s p, g fuel s = Ret p -> length p = L /\ Forall (fun d => Z.of_nat d < f) p /\ exists d, last p = Some d /\ d <> 0%nat.
  Proof.
    intros Hg. destruct (HexId2Path_inv f g Hg) as (L & HL & ->). exists L. split; [by apply hex_table_in|].
    destruct (hex_table_ge f L HL) as [Hf HL']. intros fuel s p H. apply hex_path_inv in H as (Hl & n & _ & _ & H2 & H3); [|lia].
    split; [done|]. split; [done|]. destruct (last p) as [d|] eqn:E; [exists d; split; [done|congruence]|].
    apply last_None in E. subst p. cbn in Hl. lia.
  Qed.
  Theorem C34_prefix_free f g fuel fuel' s s' p t : HexId2PathForFanOut (C:=C) f = Ret g ->
    g fuel s = Ret p -> g fuel' s' = Ret (p ++ t) -> t = [].
  Proof.
    intros Hg H H'. destruct (C34_fixed_length f g Hg) as (L & _ & HL). apply HL in H as [H _], H' as [H' _].
    rewrite app_length in H'. destruct t; [done|]. cbn [length] in H'. lia.
  Qed.
  (** The number of iterations allowed does not matter. *)
  Theorem C34_deterministic f g fuel fuel' s p p' : HexId2PathForFanOut (C:=C) f = Ret g -> g fuel s = Ret p -> g fuel' s = Ret p' -> p = p'.
  Proof.
    intros Hg. destruct (HexId2Path_inv f g Hg) as (L & HL & ->). revert fuel' s. induction fuel as [|fuel IH]; intros fuel' s H H'; [done|].
    destruct fuel' as [|fuel']; [done|]. cbn [hex_path] in H, H'. destruct (convertPathWithFanout s f) as [q| |]; cbn [rbind] in H, H'; [|done|done].
    destruct (_ =? _)%nat; [congruence|]. by apply (IH fuel' (hash (C:=C) s)).
  Qed.
  (** [direct f L s n]: s denotes n, and n has exactly L digits in base f. *)
  Definition direct (f : Z) (L : nat) (s : string) (n : Z) : Prop :=
    parse_int 16 s = Some n /\ f ^ (Z.of_nat L - 1) <= n < f ^ Z.of_nat L.
  Lemma direct_iff f L n ds : 2 <= f -> (1 <= L)%nat -> digits_of f n ds -> (length ds = L <-> f ^ (Z.of_nat L - 1) <= n < f ^ Z.of_nat L).
  Proof.
    intros Hf HL Hd. pose proof (digits_length f n ds Hf Hd (L - 1)) as H1. pose proof (digits_length f n ds Hf Hd L) as H2.
    rewrite Nat2Z.inj_sub in H1 by lia. change (Z.of_nat 1) with 1 in H1. lia.
  Qed.
  (** Ids denoting a number with the tabulated number of digits: the path is the number, in one iteration. *)
  Theorem C34_direct f g L s n : HexId2PathForFanOut (C:=C) f = Ret g -> In (f, L) hex_table -> direct f L s n ->
    exists p, (forall fuel, g (S fuel) s = Ret p) /\ le_val f p = n.
  Proof.
    intros Hg Hin [Hs Hn]. destruct (HexId2Path_inv f g Hg) as (L' & HL & ->). destruct (hex_table_ge f L' HL) as [Hf HL'].
    assert (L' = L) as ->.
    { apply hex_table_in in HL. clear -HL Hin. unfold hex_table in *. cbn [In] in *.
      repeat (destruct HL as [HL|HL]; [injection HL as <- <-; repeat (destruct Hin as [Hin|Hin]; [injection Hin; congruence|]); done|]). done. }
    assert (Hn0 : 0 <= n) by (pose proof (Z.pow_nonneg f (Z.of_nat L - 1) ltac:(lia)); lia).
    destruct (convert_spec s f n ltac:(lia) Hs Hn0) as (ds & Hds & Hd). exists ds. split; [|apply Hd].
    intros fuel. cbn [hex_path]. rewrite Hds. cbn [rbind]. apply (direct_iff f L n ds) in Hn as ->; [|lia|lia|done]. rewrite Nat.eqb_refl. done.
  Qed.
  Theorem C34_injective f g L s n s' n' fuel fuel' p : HexId2PathForFanOut (C:=C) f = Ret g -> In (f, L) hex_table ->
    direct f L s n -> direct f L s' n' -> g fuel s = Ret p -> g fuel' s' = Ret p -> n = n'.
  Proof.
    intros Hg Hin Hd Hd' H H'. destruct (C34_direct f g L s n Hg Hin Hd) as (q & Hq & <-). destruct (C34_direct f g L s' n' Hg Hin Hd') as (q' & Hq' & <-).
    rewrite (C34_deterministic f g fuel 1 s p q Hg H (Hq 0%nat)) in *. rewrite (C34_deterministic f g fuel' 1 s' q q' Hg H' (Hq' 0%nat)). done.
  Qed.

  (** C35: any other valid id is an alias of its hash, which is a 64-digit id itself. *)
  Theorem C35_alias f g L s n : HexId2PathForFanOut (C:=C) f = Ret g -> In (f, L) hex_table ->
    parse_int 16 s = Some n -> 0 <= n -> ~ (f ^ (Z.of_nat L - 1) <= n < f ^ Z.of_nat L) ->
    parse_int 16 (hash (C:=C) s) = Some (be_val (sha256 C (string_bytes s))) /\
    (forall fuel, g (S fuel) s = g fuel (hash (C:=C) s)) /\
    (forall p, (exists fuel, g fuel s = Ret p) <-> (exists fuel, g fuel (hash (C:=C) s) = Ret p)).
  Proof.
    intros Hg Hin Hs Hn0 Hn. split; [apply parse_hash|]. destruct (HexId2Path_inv f g Hg) as (L' & HL & ->). destruct (hex_table_ge f L' HL) as [Hf HL'].
    assert (L' = L) as ->.
    { apply hex_table_in in HL. clear -HL Hin. unfold hex_table in *. cbn [In] in *.
      repeat (destruct HL as [HL|HL]; [injection HL as <- <-; repeat (destruct Hin as [Hin|Hin]; [injection Hin; congruence|]); done|]). done. }
    assert (Hst : forall fuel, hex_path (C:=C) (S fuel) f L s = hex_path (C:=C) fuel f L (hash (C:=C) s)).
    { intros fuel. cbn [hex_path]. destruct (convert_spec s f n ltac:(lia) Hs Hn0) as (ds & Hds & Hd). rewrite Hds. cbn [rbind].
      destruct (Nat.eqb_spec (length ds) L) as [E|]; [|done]. apply (direct_iff f L n ds) in E; [done|lia|lia|done]. }
    split; [done|]. intros p. split.
    - intros [[|fuel] H]; [done|]. exists fuel. rewrite <- Hst. done.
    - intros [fuel H]. exists (S fuel). rewrite Hst. done.
  Qed.
  (** Which 64-digit ids (values below 2^256) are too large for the tabulated length: none, except for 7 and 255. *)
  Theorem C35_too_large f L : In (f, L) hex_table -> (f ^ Z.of_nat L < 2 ^ 256 <-> f = 7 \/ f = 255).
  Proof.
    intros H. unfold hex_table in H. cbn [In] in H.
    repeat (destruct H as [H|H]; [injection H as <- <-; split; [intros H; vm_compute in H; first [discriminate H|lia]|intros [H|H]; first [discriminate H|vm_compute; reflexivity]]|]). done.
  Qed.
  (** For every supported fanout there are 64-digit values that are too small. *)
  Theorem C35_too_small f L : In (f, L) hex_table -> f ^ (Z.of_nat L - 1) < 2 ^ 256.
  Proof. intros H. unfold hex_table in H. cbn [In] in H. repeat (destruct H as [H|H]; [injection H as <- <-; vm_compute; reflexivity|]). done. Qed.
  (** A negative id: no number of digits extracted, and no number of iterations, is enough. *)
  Theorem C35_negative f g s n : HexId2PathForFanOut (C:=C) f = Ret g -> parse_int 16 s = Some n -> n < 0 ->
    (forall steps, hex_digit_loop steps f n = Hang) /\ (forall fuel, g fuel s = Hang).
  Proof.
    intros Hg Hs Hn. destruct (HexId2Path_inv f g Hg) as (L & HL & ->). destruct (hex_table_ge f L HL) as [Hf HL'].
    split; [intros; apply hex_digit_loop_neg; lia|]. intros [|fuel]; [done|]. cbn [hex_path]. unfold convertPathWithFanout. rewrite Hs, hex_digit_loop_neg by lia. done.
  Qed.
  (** A string that is not a hexadecimal number is refused. *)
  Theorem C35_not_hex f g s fuel : HexId2PathForFanOut (C:=C) f = Ret g -> parse_int 16 s = None -> g (S fuel) s = Panic.
  Proof. intros Hg Hs. destruct (HexId2Path_inv f g Hg) as (L & HL & ->). cbn [hex_path]. unfold convertPathWithFanout. rewrite Hs. done. Qed.
End Hex.

Lemma HexId2Path_15 {C : Curve} : exists g, HexId2PathForFanOut (C:=C) 15 = Ret g.
Proof. eexists. unfold HexId2PathForFanOut. replace ((15 + 1) mod 2 ^ 16) with (2 ^ Z.of_nat 4) by reflexivity. rewrite IsPowerOfTwo_pow2Z by lia. cbn. reflexivity. Qed.
(** Fanout 15: the id fff…f (64 digits) has a direct path; the id 1 is too small and is rehashed; -1 is negative. *)
Example C34_nonvacuous : In (15, 66%nat) hex_table /\ direct 15 66 "ffffffffffffffffffffffffffffffffffffffffffffffffffffffffffffffff" (2 ^ 256 - 1).
Proof. split; [unfold hex_table; cbn [In]; tauto|]. split; [vm_compute; reflexivity|]. vm_compute. split; [discriminate|reflexivity]. Qed.
Example C35_nonvacuous : exists g, HexId2PathForFanOut (C:=toy) 15 = Ret g /\ parse_int 16 "1" = Some 1 /\
  ~ (15 ^ (Z.of_nat 66 - 1) <= 1 < 15 ^ Z.of_nat 66) /\ parse_int 16 "-1" = Some (-1) /\ parse_int 16 "xyz" = None.
Proof. destruct (HexId2Path_15 (C:=toy)) as [g Hg]. exists g. split; [done|]. split; [done|]. split; [|done]. vm_compute. intros [H _]. apply H. reflexivity. Qed.

Print Assumptions C31_dense_path.
Print Assumptions C31_value.
Print Assumptions C31_injective.
Print Assumptions C31_length.
Print Assumptions C31_rejects.
Print Assumptions C31_every_number.
Print Assumptions C32_path_length.
Print Assumptions C32_small_fanouts.
Print Assumptions C32_iterations.
Print Assumptions C33_nonpositive.
Print Assumptions C33_zero_is_prefix.
Print Assumptions C33_one_is_prefix.
Print Assumptions C33_plus_sign.
Print Assumptions C33_benchmark_ids.
Print Assumptions C33_benchmark_fanout_3.
Print Assumptions C34_fixed_length.
Print Assumptions C34_prefix_free.
Print Assumptions C34_deterministic.
Print Assumptions C34_direct.
Print Assumptions C34_injective.
Print Assumptions C35_alias.
Print Assumptions C35_too_large.
Print Assumptions C35_too_small.
Print Assumptions C35_negative.
Print Assumptions C35_not_hex.
