(** Property C73: the benchmark program: its ids, its population, its averages. *)
From Coq Require Import Ascii.
From Verif Require Import Paths_facts Prop_paths Prop_params Toy Pol_run Prop_set Prop_overlap Model_bench.
Local Open Scope Z_scope.

(** ** Decimal printing *)
Lemma dec_char d : 0 <= d < 10 -> pretty_N_char (Z.to_N d) = ascii_of_N (Z.to_N (48 + d)).
Proof.
  intros H. assert (Hc : d = 0 \/ d = 1 \/ d = 2 \/ d = 3 \/ d = 4 \/ d = 5 \/ d = 6 \/ d = 7 \/ d = 8 \/ d = 9) by lia.
  repeat (destruct Hc as [->|Hc]; [reflexivity|]). subst d. reflexivity.
Qed.
Lemma append_cons a (x s : string) : (String a x +:+ s = String a (x +:+ s))%string.
Proof. done. Qed.
Lemma dec_string_snoc w n s : (dec_string (S w) n +:+ s = dec_string w (n / 10) +:+ String (ascii_of_N (Z.to_N (48 + n mod 10))) s)%string.
Proof.
  induction w as [|w IH].
  - cbn [dec_string]. change (10 ^ Z.of_nat 0) with 1. rewrite Z.div_1_r. done.
  - change (dec_string (S (S w)) n) with (String (ascii_of_N (Z.to_N (48 + (n / 10 ^ Z.of_nat (S w)) mod 10))) (dec_string (S w) n)).
    change (dec_string (S w) (n / 10)) with (String (ascii_of_N (Z.to_N (48 + (n / 10 / 10 ^ Z.of_nat w) mod 10))) (dec_string w (n / 10))).
    rewrite !append_cons, IH. f_equal. rewrite Z.div_div by lia. rewrite Nat2Z.inj_succ, Z.pow_succ_r by lia. done.
Qed.
Lemma pretty_go_dec w : forall n s, 10 ^ (Z.of_nat w - 1) <= n < 10 ^ Z.of_nat w -> (pretty_N_go (Z.to_N n) s = dec_string w n +:+ s)%string.
Proof.
  induction w as [|w IH]; intros n s H; [change (10 ^ Z.of_nat 0) with 1 in H; change (10 ^ (Z.of_nat 0 - 1)) with 0 in H; replace n with 0 by lia; apply pretty_N_go_0|].
  assert (0 < 10 ^ Z.of_nat w) by (apply Z.pow_pos_nonneg; lia). rewrite Nat2Z.inj_succ in H. rewrite Z.pow_succ_r in H by lia. replace (Z.succ (Z.of_nat w) - 1) with (Z.of_nat w) in H by lia.
  rewrite pretty_N_go_step by lia. rewrite dec_string_snoc.
  replace (Z.to_N n `mod` 10)%N with (Z.to_N (n mod 10)) by (rewrite Z2N.inj_mod by lia; done).
  rewrite dec_char by (apply Z.mod_pos_bound; lia).
  replace (Z.to_N n `div` 10)%N with (Z.to_N (n / 10)) by (rewrite Z2N.inj_div by lia; done).
  destruct w as [|w].
  - change (10 ^ Z.of_nat 0) with 1 in H. rewrite Z.div_small by lia. rewrite pretty_N_go_0. done.
  - apply IH. rewrite Nat2Z.inj_succ in *. replace (Z.succ (Z.of_nat w) - 1) with (Z.of_nat w) by lia. rewrite Z.pow_succ_r in * by lia. split; [apply Z.div_le_lower_bound; lia|apply Z.div_lt_upper_bound; lia].
Qed.
Lemma pretty_dec9 n : 10 ^ 8 <= n < 10 ^ 9 -> pretty (Z.to_N n) = dec_string 9 n.
Proof.
  intros H. unfold pretty, pretty_N. rewrite decide_False by lia. rewrite (pretty_go_dec 9) by exact H.
  generalize (dec_string 9 n). clear. intros s. induction s as [|a s IH]; [done|]. rewrite append_cons, IH. done.
Qed.

(** ** Dense ids *)
(** The number shown by a dense id *)
Definition dense_number (buff : bytes) : Z := let m := be_val buff mod 10 ^ 9 in if m <? 10 ^ 8 then m + 10 ^ 8 else m.
Lemma dense_number_range buff : 10 ^ 8 <= dense_number buff < 10 ^ 9.
Proof. unfold dense_number. pose proof (Z.mod_pos_bound (be_val buff) (10 ^ 9) ltac:(lia)). destruct (Z.ltb_spec (be_val buff mod 10 ^ 9) (10 ^ 8)); lia. Qed.
Lemma dense_id_dec buff : dense_id buff = dec_string 9 (dense_number buff).
Proof. rewrite <- pretty_dec9 by apply dense_number_range. done. Qed.

(** Whatever the buffer, the id has nine characters and denotes a number from 10^8 on ... *)
Theorem C73_id_format buff : String.length (dense_id buff) = 9%nat /\ ParseInt32 (dense_id buff) = Some (dense_number buff) /\ 10 ^ 8 <= dense_number buff < 10 ^ 9.
Proof.
  pose proof (dense_number_range buff). rewrite dense_id_dec. split; [apply dec_string_length|]. split; [apply parse_dec9; lia|done].
Qed.
(** ... every such number occurs ... *)
Theorem C73_every_id n : 10 ^ 8 <= n < 10 ^ 9 -> exists buff, length buff = 32%nat /\ Forall (fun b => 0 <= b < 256) buff /\ dense_number buff = n.
Proof.
  intros Hn. exists (be_bytes 32 n). split; [apply be_bytes_length|]. split; [apply be_bytes_wf|].
  unfold dense_number. rewrite be_val_be_bytes by (split; [lia|]; transitivity (10 ^ 9); [lia|reflexivity]).
  rewrite Z.mod_small by lia. destruct (Z.ltb_spec n (10 ^ 8)); lia.
Qed.
(** ... and two ids are the same exactly when they denote the same number. *)
Theorem C73_id_injective buff buff' : dense_id buff = dense_id buff' <-> dense_number buff = dense_number buff'.
Proof.
  split; [|intros H; rewrite !dense_id_dec, H; done]. intros H.
  destruct (C73_id_format buff) as (_ & E & _), (C73_id_format buff') as (_ & E' & _). rewrite H, E' in E. congruence.
Qed.

(** ** Population *)
(** Setting benchmark ids to amounts: every call returns and the last amount of each id is read back. *)
Lemma bench_fixed k (h : list (bytes * Z)) : (3 <= k <= 15)%nat -> exists n pathof,
  DigitPathLen (2 ^ Z.of_nat k - 1) = Ret n /\
  fixed_paths (Z.to_nat (2 ^ Z.of_nat k - 1)) (digit_path (2 ^ Z.of_nat k - 1)) pathof n ((fun '(b, z) => (dense_id b, z)) <$> h) /\
  (forall b b', pathof (dense_id b) = pathof (dense_id b') -> dense_id b = dense_id b') /\
  (forall b, digit_path (2 ^ Z.of_nat k - 1) (dense_id b) = Ret (pathof (dense_id b)) /\ length (pathof (dense_id b)) = n).
Proof.
  intros Hk. set (f := 2 ^ Z.of_nat k - 1). pose proof (DigitPath_pow2 k ltac:(lia)) as HP. fold f in HP.
  assert (Hf : 2 <= f <= 32767).
  { pose proof (Z.pow_le_mono_r 2 3 (Z.of_nat k) ltac:(lia) ltac:(lia)). pose proof (Z.pow_le_mono_r 2 (Z.of_nat k) 15 ltac:(lia) ltac:(lia)). unfold f. lia. }
  destruct (C32_path_length f ltac:(lia)) as (n & Hn & _).
  exists n, (fun id => match digit_path f id with Ret p => p | _ => [] end).
  assert (Hb : forall b, exists p, digit_path f (dense_id b) = Ret p /\ length p = n /\ Forall (fun i => i < Z.to_nat f)%nat p).
  { intros b. destruct (C73_id_format b) as (H1 & H2 & H3).
    destruct (C33_benchmark_ids k _ (dense_id b) (dense_number b) ltac:(lia) HP H1 H2 ltac:(lia)) as (p & Hp & Hl). fold f in Hl.
    exists p. split; [exact Hp|]. split; [congruence|].
    destruct (C31_value f _ _ _ p ltac:(lia) HP H2 ltac:(lia) Hp) as [_ Hall]. eapply Forall_impl; [exact Hall|]. intros d Hd. cbn beta in Hd. lia. }
  split; [exact Hn|]. split; [|split].
  - split; [lia|]. intros id z Hin. apply elem_of_list_fmap in Hin as ([b z'] & [= -> ->] & _). destruct (Hb b) as (p & Hp & H). rewrite Hp. done.
  - intros b b' E. destruct (Hb b) as (p & Hp & _), (Hb b') as (p' & Hp' & _). rewrite Hp, Hp' in E. subst p'.
    apply C73_id_injective. destruct (C73_id_format b) as (_ & H2 & H3), (C73_id_format b') as (_ & H2' & H3').
    exact (C31_injective f _ _ _ _ _ p ltac:(lia) HP H2 ltac:(lia) H2' ltac:(lia) Hp Hp').
  - intros b. destruct (Hb b) as (p & Hp & Hl & _). rewrite Hp. done.
Qed.

Definition bench_sets (h : list (bytes * Z)) : list call := (fun '(b, z) => CSet (dense_id b) z) <$> h.
Lemma sets_bench h : sets (bench_sets h) = (fun '(b, z) => (dense_id b, z)) <$> h.
Proof. induction h as [|[b z] h IH]; [done|]. unfold bench_sets in *. rewrite !fmap_cons. cbn [sets omap list_omap]. fold (sets (bench_sets h)). rewrite <- IH. done. Qed.

Theorem C73_dense_runs (C : Curve) k α g (pp : PolPP C) fuel rnd order db0 (h : list (bytes * Z)) :
  (3 <= k <= 15)%nat -> GeneratePublicParams (C:=C) (2 ^ Z.of_nat k - 1) Dense α = Ret (g, pp) ->
  (forall k b m, order k b m ≡ₚ map_to_list m) -> Forall (fun e => 0 <= e.2) h ->
  exists ls, do_calls pp rnd order (g fuel) (NewLiabilitySet db0) (bench_sets h) = Ret ls /\
    forall h1 b z h2, h = h1 ++ (b, z) :: h2 -> (forall b' z', (b', z') ∈ h2 -> dense_id b' <> dense_id b) ->
      LS_Get (C:=C) (g fuel) ls (dense_id b) = Ret (Some z).
Proof.
  intros Hk Hgen Ho Hpos. set (f := 2 ^ Z.of_nat k - 1) in *.
  assert (Hs : supported f Dense) by (exists (Z.of_nat k); split; [done|lia]).
  destruct (generate_spec (C:=C) f Dense α Hs) as (n' & g' & pp' & k' & Hgen' & Hn' & _ & Hpp & (hh & Hh & Hgg) & _).
  rewrite Hgen in Hgen'. injection Hgen' as <- <-. apply DigitPath_inv in Hh. subst hh. rewrite Hgg. clear Hgg.
  apply params_ok_tree in Hpp.
  assert (Hrun : exists ls, do_calls pp rnd order (digit_path f) (NewLiabilitySet db0) (bench_sets h) = Ret ls).
  { induction h as [|[b z] h IH] using rev_ind; [eexists; reflexivity|]. apply Forall_app in Hpos as [Hpos Hz]. apply Forall_inv in Hz. cbn in Hz.
    destruct (IH Hpos) as [ls Hls]. unfold bench_sets. rewrite fmap_app, do_calls_app. fold (bench_sets h). rewrite Hls. cbn [rbind fmap list_fmap do_calls do_call].
    destruct (bench_fixed k (h ++ [(b, z)]) Hk) as (n & pathof & _ & Hfix & _). rewrite fmap_app in Hfix. fold f in Hfix.
    destruct (C44_set_never_fails C (Z.to_nat f) α pp rnd order (digit_path f) pathof n (bench_sets h) ls (dense_id b) z Hpp) as [ls' Hls']; [rewrite sets_bench; exact Hfix|split; [exact Ho|exists db0; exact Hls]|exact Hz|].
    rewrite Hls'. cbn [rbind]. eauto. }
  destruct Hrun as [ls Hls]. exists ls. split; [exact Hls|]. intros h1 b z h2 E Hlast.
  destruct (bench_fixed k h Hk) as (n & pathof & _ & Hfix & Hinj & Hb). fold f in Hfix, Hb. destruct (Hb b) as [Hpb Hlb].
  rewrite (C44_get C (Z.to_nat f) α pp rnd order (digit_path f) pathof n (bench_sets h) ls (dense_id b) (pathof (dense_id b)) Hpp); [|rewrite sets_bench; exact Hfix|split; [exact Ho|exists db0; exact Hls]|exact Hpb|exact Hlb].
  f_equal. rewrite sets_bench, E. clear E Hls Hfix. rewrite fmap_app. cbn [fmap list_fmap]. fold (fmap (M:=list) (fun '(b, z) => (dense_id b, z)) h2).
  induction h2 as [|[b' z'] h2 IH] using rev_ind.
  - change (fmap _ []) with (@nil (string * Z)). rewrite latest_snoc, decide_True by done. done.
  - rewrite fmap_app, app_comm_cons, app_assoc. cbn [fmap list_fmap]. rewrite latest_snoc. rewrite decide_False; [apply IH; intros b'' z'' Hin; apply (Hlast b'' z''); apply elem_of_app; by left|].
    intros Hp. apply Hinj in Hp. apply (Hlast b' z'); [|done]. apply elem_of_app. right. apply elem_of_list_here.
Qed.

Lemma populate_bench batches buffs : exists h, populateLiabilitySet dense_id batches ++ measured dense_id buffs = bench_sets h /\ Forall (fun e => 0 <= e.2) h /\
  forall h1 b h2, buffs = h1 ++ b :: h2 -> (forall b', b' ∈ h2 -> dense_id b' <> dense_id b) ->
    exists h1' h2', h = h1' ++ (b, 666) :: h2' /\ (forall b' z', (b', z') ∈ h2' -> dense_id b' <> dense_id b).
Proof.
  exists (mjoin ((imap (fun j b => (b, Z.of_nat j)) : list bytes -> _) <$> batches) ++ ((fun b => (b, 666)) <$> buffs)). split; [|split].
  - unfold bench_sets. rewrite fmap_app. f_equal.
    + unfold populateLiabilitySet. induction batches as [|l ls IH]; [done|]. rewrite !fmap_cons. cbn [mjoin list_join]. rewrite fmap_app. f_equal; [|exact IH].
      unfold batch. rewrite fmap_imap. apply imap_ext. done.
    + unfold measured. rewrite <- list_fmap_compose. done.
  - apply Forall_app. split.
    + apply Forall_forall. intros e He. apply elem_of_list_join in He as (l & Hl & Hin). apply elem_of_list_fmap in Hin as (bs & -> & _).
      apply elem_of_list_lookup in Hl as (i & Hi). rewrite list_lookup_imap in Hi. destruct (bs !! i); [|done]. cbn in Hi. injection Hi as <-. cbn. lia.
    + apply Forall_fmap. apply Forall_forall. intros b _. cbn. lia.
  - intros h1 b h2 -> Hlast. rewrite fmap_app. cbn [fmap list_fmap]. fold (fmap (M:=list) (fun b : bytes => (b, 666)) h2). rewrite app_assoc. eexists _, _. split; [reflexivity|].
    intros b' z' Hin. apply elem_of_list_fmap in Hin as (b'' & [= -> ->] & Hin). by apply Hlast.
Qed.
(** The run of the dense benchmark up to the proofs, for fanouts 7, 15, ...: no panic, and the measured ids hold 666. *)
Theorem C73_dense_benchmark (C : Curve) k α g (pp : PolPP C) fuel rnd order db0 batches buffs :
  (3 <= k <= 15)%nat -> GeneratePublicParams (C:=C) (2 ^ Z.of_nat k - 1) Dense α = Ret (g, pp) ->
  (forall k b m, order k b m ≡ₚ map_to_list m) ->
  exists ls, do_calls pp rnd order (g fuel) (NewLiabilitySet db0) (populateLiabilitySet dense_id batches ++ measured dense_id buffs) = Ret ls /\
    forall b, b ∈ buffs -> LS_Get (C:=C) (g fuel) ls (dense_id b) = Ret (Some 666).
Proof.
  intros Hk Hgen Ho. destruct (populate_bench batches buffs) as (h & E & Hpos & Hb). rewrite E.
  destruct (C73_dense_runs C k α g pp fuel rnd order db0 h Hk Hgen Ho Hpos) as (ls & Hls & Hget). exists ls. split; [exact Hls|].
  intros b Hin. assert (Hex : exists h1 b' h2, buffs = h1 ++ b' :: h2 /\ dense_id b' = dense_id b /\ forall b'', b'' ∈ h2 -> dense_id b'' <> dense_id b').
  { clear -Hin. induction buffs as [|c l IH] using rev_ind; [by apply elem_of_nil in Hin|].
    destruct (decide (dense_id c = dense_id b)) as [Ec|Ec].
    - exists l, c, []. split; [done|]. split; [done|]. intros b'' H. by apply elem_of_nil in H.
    - apply elem_of_app in Hin as [Hin|Hin]; [|apply elem_of_list_singleton in Hin; congruence].
      destruct (IH Hin) as (h1 & b' & h2 & -> & Eb & H). exists h1, b', (h2 ++ [c]). rewrite <- app_assoc. split; [done|]. split; [done|].
      intros b'' Hi. apply elem_of_app in Hi as [Hi|Hi]; [by apply H|]. apply elem_of_list_singleton in Hi as ->. congruence. }
  destruct Hex as (h1 & b' & h2 & Eb & <- & Hl). destruct (Hb h1 b' h2 Eb Hl) as (h1' & h2' & Eh & Hl'). exact (Hget h1' b' 666 h2' Eh Hl').
Qed.
(** ** The sparse benchmark *)
Lemma hex_string_length bs : String.length (hex_string bs) = (2 * length bs)%nat.
Proof. induction bs as [|b bs IH]; [done|]. cbn [hex_string String.length length]. rewrite IH. lia. Qed.
Lemma parse_sparse b bs : wf_bytes (b :: bs) -> parse_int 16 (sparse_id (b :: bs)) = Some (be_val (b :: bs)).
Proof.
  intros Hw. pose proof (parse_hex_string (b :: bs) 0 Hw ltac:(lia)) as Hp.
  unfold sparse_id, parse_int. cbn [hex_string] in *. apply Forall_cons in Hw. destruct Hw as [Hb Hw]. unfold wf_byte in Hb.
  assert (0 <= b / 16 < 16) as Hq by (split; [apply Z.div_pos; lia|apply Z.div_lt_upper_bound; lia]).
  assert (Hc : forall d, 0 <= d < 16 -> byte_of_ascii (hex_char d) <> 43 /\ byte_of_ascii (hex_char d) <> 45).
  { intros d Hd. unfold hex_char. destruct (Z.ltb_spec d 10); rewrite byte_of_ascii_of_N by lia; lia. }
  destruct (Hc _ Hq) as [H1 H2]. destruct (Z.eqb_spec (byte_of_ascii (hex_char (b / 16))) 43); [lia|].
  destruct (Z.eqb_spec (byte_of_ascii (hex_char (b / 16))) 45); [lia|]. unfold parse_nat. exact Hp.
Qed.
(** A buffer of 32 bytes gives an id of 64 hexadecimal digits that denotes the number in the buffer; different buffers give
    different ids. *)
Theorem C73_sparse_ids buff buff' : wf_bytes buff -> wf_bytes buff' -> length buff = 32%nat -> length buff' = 32%nat ->
  String.length (sparse_id buff) = 64%nat /\ parse_int 16 (sparse_id buff) = Some (be_val buff) /\ (sparse_id buff = sparse_id buff' -> buff = buff').
Proof.
  intros Hw Hw' Hl Hl'. destruct buff as [|b bs]; [done|]. destruct buff' as [|b' bs']; [done|].
  split; [unfold sparse_id; rewrite hex_string_length, Hl; done|]. split; [by apply parse_sparse|]. intros E.
  pose proof (parse_sparse b bs Hw) as H. rewrite E, (parse_sparse b' bs' Hw') in H. apply be_val_inj; [done|done|congruence|congruence].
Qed.

Lemma latest_measured pathof l (buffs : list bytes) b : b ∈ buffs -> latest pathof (l ++ ((fun b => (sparse_id b, 666)) <$> buffs)) (pathof (sparse_id b)) = Some 666.
Proof.
  induction buffs as [|c buffs IH] using rev_ind; intros Hb; [by apply elem_of_nil in Hb|]. rewrite fmap_app, app_assoc. cbn [fmap list_fmap]. rewrite latest_snoc.
  destruct (decide _) as [E|E]; [done|]. apply elem_of_app in Hb as [Hb|Hb]; [by apply IH|]. apply elem_of_list_singleton in Hb as ->. done.
Qed.
(** The run of the sparse benchmark up to the proofs, for every supported fanout: if the search for a path ends for every id
    drawn, nothing panics and the measured ids hold 666. *)
Theorem C73_sparse_benchmark (C : Curve) f α g (pp : PolPP C) fuel rnd order db0 batches buffs :
  supported f Sparse -> GeneratePublicParams (C:=C) f Sparse α = Ret (g, pp) ->
  (forall k b m, order k b m ≡ₚ map_to_list m) ->
  (forall b, b ∈ mjoin batches ++ buffs -> exists p, g fuel (sparse_id b) = Ret p) ->
  exists ls, do_calls pp rnd order (g fuel) (NewLiabilitySet db0) (populateLiabilitySet sparse_id batches ++ measured sparse_id buffs) = Ret ls /\
    forall b, b ∈ buffs -> LS_Get (C:=C) (g fuel) ls (sparse_id b) = Ret (Some 666).
Proof.
  intros Hs Hgen Ho Hfound.
  destruct (generate_spec (C:=C) f Sparse α Hs) as (n' & g' & pp' & k' & Hgen' & Hn' & _ & Hpp & Hg & _).
  rewrite Hgen in Hgen'. injection Hgen' as <- <-. apply params_ok_tree in Hpp.
  destruct (C34_fixed_length f g Hg) as (L & HL & Hpath).
  assert (Hf : 3 <= f < 16384) by (clear -HL; unfold hex_table in HL; cbn [In] in HL; repeat (destruct HL as [HL|HL]; [injection HL as <- <-; lia|]); done).
  set (h0 := mjoin ((imap (fun j b => (sparse_id b, Z.of_nat j)) : list bytes -> _) <$> batches)).
  set (h1 := (fun b => (sparse_id b, 666)) <$> buffs).
  set (cs := (fun e : string * Z => CSet e.1 e.2)).
  assert (Ecs : populateLiabilitySet sparse_id batches ++ measured sparse_id buffs = cs <$> (h0 ++ h1)).
  { unfold h0, h1. rewrite fmap_app. f_equal; [|unfold measured; rewrite <- list_fmap_compose; done].
    unfold populateLiabilitySet. clear. induction batches as [|l ls IH]; [done|]. rewrite !fmap_cons. cbn [mjoin list_join]. rewrite fmap_app. f_equal; [|exact IH].
    unfold batch. rewrite fmap_imap. apply imap_ext. done. }
  assert (Esets : forall l, sets (cs <$> l) = l).
  { clear. induction l as [|[id z] l IH]; [done|]. rewrite fmap_cons. unfold sets in *. cbn [omap list_omap]. rewrite IH. done. }
  assert (Hids : forall id z, (id, z) ∈ h0 ++ h1 -> 0 <= z /\ exists b, b ∈ mjoin batches ++ buffs /\ id = sparse_id b).
  { intros id z Hin. apply elem_of_app in Hin as [Hin|Hin].
    - apply elem_of_list_join in Hin as (l & Hl & Hin). apply elem_of_list_fmap in Hin as (bs & -> & Hbs).
      apply elem_of_list_lookup in Hl as (i & Hi). rewrite list_lookup_imap in Hi. destruct (bs !! i) as [b|] eqn:Eb; [|done]. cbn in Hi. injection Hi as <- <-.
      split; [lia|]. exists b. split; [|done]. apply elem_of_app. left. apply elem_of_list_join. exists bs. split; [by eapply elem_of_list_lookup_2|done].
    - apply elem_of_list_fmap in Hin as (b & [= -> ->] & Hin). split; [lia|]. exists b. split; [|done]. apply elem_of_app. by right. }
  rewrite Ecs. set (pathof := fun id => match g fuel id with Ret p => p | _ => [] end).
  assert (Hp : forall id z, (id, z) ∈ h0 ++ h1 -> g fuel id = Ret (pathof id) /\ length (pathof id) = L /\ Forall (fun i => i < Z.to_nat f)%nat (pathof id)).
  { intros id z Hin. apply Hids in Hin as (_ & b & Hb & ->). destruct (Hfound b Hb) as [p Hp]. unfold pathof. rewrite Hp. split; [done|].
    destruct (Hpath fuel _ p Hp) as (H1 & H2 & _). split; [done|]. eapply Forall_impl; [exact H2|]. intros d Hd. cbn beta in Hd. lia. }
  assert (Hfix : forall l l', h0 ++ h1 = l ++ l' -> fixed_paths (Z.to_nat f) (g fuel) pathof L l).
  { intros l l' E. split; [lia|]. intros id z Hin. apply (Hp id z). rewrite E. apply elem_of_app. by left. }
  assert (Hrun : forall l l', h0 ++ h1 = l ++ l' -> exists ls, do_calls pp rnd order (g fuel) (NewLiabilitySet db0) (cs <$> l) = Ret ls).
  { induction l as [|[id z] l IH] using rev_ind; intros l' E; [eexists; reflexivity|].
    destruct (IH ([(id, z)] ++ l')) as [ls Hls]; [by rewrite app_assoc|]. rewrite fmap_app, do_calls_app, Hls. cbn [rbind fmap list_fmap do_calls do_call cs fst snd].
    destruct (C44_set_never_fails C (Z.to_nat f) α pp rnd order (g fuel) pathof L (cs <$> l) ls id z Hpp) as [ls' Hls'].
    - rewrite Esets. by apply (Hfix _ l').
    - split; [exact Ho|exists db0; exact Hls].
    - apply (Hids id z). rewrite E. apply elem_of_app. left. apply elem_of_app. right. apply elem_of_list_here.
    - rewrite Hls'. cbn [rbind]. eauto. }
  destruct (Hrun (h0 ++ h1) []) as [ls Hls]; [by rewrite app_nil_r|]. exists ls. split; [exact Hls|]. intros b Hb.
  assert (Hbin : (sparse_id b, 666) ∈ h0 ++ h1) by (apply elem_of_app; right; apply elem_of_list_fmap; by exists b).
  destruct (Hp _ _ Hbin) as (Hpb & Hlb & _).
  rewrite (C44_get C (Z.to_nat f) α pp rnd order (g fuel) pathof L (cs <$> (h0 ++ h1)) ls (sparse_id b) (pathof (sparse_id b)) Hpp); [|rewrite Esets; apply (Hfix _ []); by rewrite app_nil_r|split; [exact Ho|exists db0; exact Hls]|exact Hpb|exact Hlb].
  f_equal. rewrite Esets. by apply latest_measured.
Qed.

(** With fanout 3, the first one in the list (line 23), two draws suffice for a panic. *)
Theorem C73_fanout_3_panics : exists b1 b2, length b1 = 32%nat /\ length b2 = 32%nat /\
  forall (C : Curve) α g (pp : PolPP C) fuel rnd order z1 z2,
    GeneratePublicParams (C:=C) 3 Dense α = Ret (g, pp) -> (forall k b m, order k b m ≡ₚ map_to_list m) -> 0 <= z1 ->
    do_calls pp rnd order (g fuel) (NewLiabilitySet ∅) [CSet (dense_id b1) z1; CSet (dense_id b2) z2] = Panic.
Proof.
  exists (be_bytes 32 100000000), (be_bytes 32 487420489). split; [done|]. split; [done|].
  replace (dense_id (be_bytes 32 100000000)) with "100000000"%string by (vm_compute; reflexivity).
  replace (dense_id (be_bytes 32 487420489)) with "487420489"%string by (vm_compute; reflexivity).
  intros C α g pp fuel rnd order z1 z2 Hgen Ho Hz.
  assert (Hs : supported 3 Dense) by (exists 2; split; [done|lia]).
  destruct (generate_spec (C:=C) 3 Dense α Hs) as (n' & g' & pp' & k' & Hgen' & Hn' & _ & Hpp & (hh & Hh & Hgg) & _).
  rewrite Hgen in Hgen'. injection Hgen' as <- <-. apply DigitPath_inv in Hh. subst hh. rewrite Hgg. clear Hgg.
  apply params_ok_tree in Hpp. change (Z.to_nat 3) with 3%nat in Hpp.
  destruct (digit_path 3 "100000000") as [p| |] eqn:Ep; [|vm_compute in Ep; discriminate Ep..].
  assert (Eq : digit_path 3 "487420489" = Ret (p ++ [1%nat])) by (vm_compute in Ep; injection Ep as <-; vm_compute; reflexivity).
  assert (Hp3 : Forall (fun i => i < 3)%nat p) by (vm_compute in Ep; injection Ep as <-; repeat (apply Forall_cons; split; [lia|]); apply Forall_nil; done).
  set (pathof := fun _ : string => p).
  assert (Hfix : fixed_paths 3 (digit_path 3) pathof (length p) [("100000000"%string, z1)]).
  { split; [lia|]. intros id z Hin. apply elem_of_list_singleton in Hin as [= -> ->]. split; [exact Ep|]. split; [done|exact Hp3]. }
  assert (Hf0 : set_run pp rnd order (digit_path 3) [] (NewLiabilitySet ∅)) by (split; [exact Ho|exists ∅; done]).
  destruct (C44_set_never_fails C 3 α pp rnd order (digit_path 3) pathof (length p) [] (NewLiabilitySet ∅) "100000000" z1 Hpp Hfix Hf0 Hz) as [ls Hls].
  assert (Hd : do_calls pp rnd order (digit_path 3) (NewLiabilitySet ∅) [CSet "100000000" z1] = Ret ls) by (cbn [do_calls do_call]; rewrite Hls; done).
  cbn [do_calls do_call]. rewrite Hls. cbn [rbind].
  rewrite (C63_long_after_short C 3 α pp rnd order (digit_path 3) pathof (length p) [CSet "100000000" z1] ∅ ls "100000000" "487420489" p [1%nat] z1 z2 Hpp);
    [done|exact Hfix|exact Ho|exact Hd|apply lookup_empty|exact Ep|done| |exact Eq|done].
  rewrite (C44_get C 3 α pp rnd order (digit_path 3) pathof (length p) [CSet "100000000" z1] ls "100000000" p Hpp Hfix); [|split; [exact Ho|exists ∅; exact Hd]|exact Ep|done].
  change (sets [CSet "100000000" z1]) with ([] ++ [("100000000"%string, z1)]). rewrite latest_snoc, decide_True by done. done.
Qed.

(** ** Averages *)
(** Exactly the empty list has no average: with ITERATIONS=0 the program panics when it prints its results. *)
Theorem C73_average_panics s : Avg s = Panic <-> s = [].
Proof. destruct s as [|x s]; [done|]. split; [|done]. unfold Avg. done. Qed.
Lemma int64_small z : - 2 ^ 63 <= z < 2 ^ 63 -> int64 z = z.
Proof. intros H. unfold int64. rewrite Z.mod_small by lia. lia. Qed.
Lemma sum_small s : forall a, 0 <= a -> Forall (fun x => 0 <= x) s -> a + foldr Z.add 0 s < 2 ^ 63 -> fold_left (fun sum x => int64 (sum + x)) s a = a + foldr Z.add 0 s.
Proof.
  induction s as [|x s IH]; intros a Ha Hp Hs; [cbn; lia|]. apply Forall_cons in Hp as [Hx Hp]. cbn [fold_left foldr] in *.
  assert (0 <= foldr Z.add 0 s) by (clear -Hp; induction Hp; cbn; lia). rewrite int64_small by lia. rewrite IH; [lia|lia|done|lia].
Qed.
(** Otherwise it is the mean rounded down, if the total fits in 63 bits ... *)
Theorem C73_average_mean s : s <> [] -> Forall (fun x => 0 <= x) s -> foldr Z.add 0 s < 2 ^ 63 ->
  exists m, Avg s = Ret m /\ m * Z.of_nat (length s) <= foldr Z.add 0 s < (m + 1) * Z.of_nat (length s).
Proof.
  intros Hne Hp Hs. assert (Hl : 0 < Z.of_nat (length s)) by (destruct s; [done|]; cbn [length]; lia).
  assert (H0 : 0 <= foldr Z.add 0 s) by (clear -Hp; induction Hp; cbn; lia).
  unfold Avg. rewrite (sum_small s 0) by (done || lia). rewrite Z.add_0_l. destruct (Nat.eqb_spec (length s) 0); [lia|]. cbn [negb].
  set (t := foldr Z.add 0 s) in *. set (l := Z.of_nat (length s)) in *. pose proof (Z.div_mod t l ltac:(lia)). pose proof (Z.mod_pos_bound t l ltac:(lia)).
  rewrite Z.quot_div_nonneg by lia. assert (0 <= t / l) by (apply Z.div_pos; lia). assert (t / l <= t) by (apply Z.div_le_upper_bound; nia). exists (t / l). rewrite int64_small by lia. split; [done|]. nia.
Qed.
(** ... and not necessarily in the range of the elements otherwise. *)
Theorem C73_average_overflow : exists s, Forall (fun x => 0 <= x < 2 ^ 63) s /\ exists m, Avg s = Ret m /\ m < 0.
Proof. exists [2 ^ 63 - 1; 2 ^ 63 - 1]. split; [repeat constructor; lia|]. exists (-1). vm_compute. done. Qed.

Example C73_nonvacuous : exists g (pp : PolPP toy), GeneratePublicParams (C:=toy) (2 ^ Z.of_nat 3 - 1) Dense (zr 5) = Ret (g, pp) /\
  (exists g3 (pp3 : PolPP toy), GeneratePublicParams (C:=toy) 3 Dense (zr 5) = Ret (g3, pp3)) /\
  dense_id [1; 2; 3] = "100066051"%string /\ dense_id [255; 255; 255; 255; 255] = "511627775"%string /\ Avg [3; 4; 8] = Ret 5.
Proof.
  destruct (C61_consistent toy 7 Dense (zr 5)) as (g & pp & _ & _ & H & _); [exists 3; split; [done|lia]|].
  destruct (C61_consistent toy 3 Dense (zr 5)) as (g3 & pp3 & _ & _ & H3 & _); [exists 2; split; [done|lia]|].
  exists g, pp. split; [exact H|]. split; [exists g3, pp3; exact H3|]. split; [|split]; vm_compute; reflexivity.
Qed.
(** The sparse benchmark with fanout 15: buffers of 32 bytes for which the search ends at once *)
Example C73_sparse_nonvacuous : supported 15 Sparse /\ exists g (pp : PolPP toy), GeneratePublicParams (C:=toy) 15 Sparse (zr 5) = Ret (g, pp) /\
  let b1 := replicate 32 255 in let b2 := 254 :: replicate 31 7 in b1 <> b2 /\ wf_bytes b1 /\ wf_bytes b2 /\
  forall b, b ∈ mjoin [[b1]; [b2; b1]] ++ [b1; b2] -> exists p, g 1%nat (sparse_id b) = Ret p.
Proof.
  assert (Hs : supported 15 Sparse) by (exists 4; split; [done|lia]). split; [exact Hs|].
  destruct (generate_spec (C:=toy) 15 Sparse (zr 5) Hs) as (n & g & pp & k & H & _ & _ & _ & Hg & _). exists g, pp. split; [exact H|]. cbn zeta.
  split; [done|]. split; [apply Forall_replicate; unfold wf_byte; lia|]. split; [constructor; [unfold wf_byte; lia|apply Forall_replicate; unfold wf_byte; lia]|].
  assert (H1 : forall b, b = replicate 32 255 \/ b = 254 :: replicate 31 7 -> exists p, g 1%nat (sparse_id b) = Ret p).
  { intros b Hb. destruct (C34_direct 15 g 66%nat (sparse_id b) (be_val b) Hg) as (p & Hp & _); [unfold hex_table; cbn [In]; tauto| |by exists p; apply Hp].
    destruct Hb as [->| ->]; (split; [vm_compute; reflexivity|]; vm_compute; split; [discriminate|reflexivity]). }
  intros b Hb. apply H1. cbn [mjoin list_join app] in Hb. repeat (apply elem_of_cons in Hb as [->|Hb]; [tauto|]). by apply elem_of_nil in Hb.
Qed.
Print Assumptions C73_id_format.
Print Assumptions C73_every_id.
Print Assumptions C73_id_injective.
Print Assumptions C73_dense_runs.
Print Assumptions C73_dense_benchmark.
Print Assumptions C73_fanout_3_panics.
Print Assumptions C73_average_panics.
Print Assumptions C73_average_mean.
Print Assumptions C73_average_overflow.
Print Assumptions C73_sparse_ids.
Print Assumptions C73_sparse_benchmark.
