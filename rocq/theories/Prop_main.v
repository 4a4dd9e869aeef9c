(** Property C89: the benchmark program end to end, from the environment variables to the report. *)
From Verif Require Export Prop_benchrun Model_main.
From Verif Require Import Verkle_run Pol_chain Pol_params Prop_size Prop_bench Prop_set Prop_paths Paths_facts Pol_run Prop_params Toy.
Local Open Scope Z_scope.

(** ** Specification *)
(** The environment: whether the verification and the proofs run in parallel, the number of iterations, the tree type *)
Definition parallelism_ok (P : string) : Prop := P = ""%string \/ P = "0"%string \/ P = "1"%string.
Definition iterations (I : string) (N : Z) : Prop := (I = ""%string /\ N = 10) \/ (I <> ""%string /\ ParseInt32 I = Some N).
Definition tree_type (T : string) (t : TreeType) : Prop := (t = Sparse /\ (T = ""%string \/ T = "SPARSE"%string)) \/ (t = Dense /\ T = "DENSE"%string).
(** The fanouts measured are 2^k - 1 for k from 2 to 9. *)
Definition measured_fanouts : list (nat * Z) := [(2%nat, 3); (3%nat, 7); (4%nat, 15); (5%nat, 31); (6%nat, 63); (7%nat, 127); (8%nat, 255); (9%nat, 511)].
(** The depth of their trees *)
Definition depth (t : TreeType) (k : nat) : nat :=
  match t with
  | Dense => nth (k - 2) [19; 11; 8; 7; 6; 5; 4; 4] O
  | Sparse => nth (k - 2) [162; 91; 66; 52; 43; 37; 32; 29] O
  end%nat.
(** The buffers the benchmark of a fanout draws with N iterations: 1000 for the population, one per iteration *)
Definition drawn (fn : Fan) (N : Z) (b : bytes) : Prop :=
  (exists j, (j < 1000)%nat /\ b = fn_pop fn 0 j) \/ (exists i, (i < Z.to_nat N)%nat /\ b = fst (fst (fn_run fn i))).
(** A line: "(fanout, value)" for every fanout *)
Definition line (value : nat -> Z -> Z) : string :=
  foldr String.append ""%string ((fun kf => ("(" +:+ pretty (snd kf) +:+ ", " +:+ pretty (value (fst kf) (snd kf)) +:+ ")")%string) <$> measured_fanouts).
(** N measured durations that do not overflow, and their mean in milliseconds, rounded down *)
Definition small (N : Z) (d : nat -> Z) : Prop := (forall i, 0 <= d i) /\ foldr Z.add 0 (d <$> seq 0 (Z.to_nat N)) < 2 ^ 63.
Definition mean_ms (N : Z) (d : nat -> Z) : Z := foldr Z.add 0 (d <$> seq 0 (Z.to_nat N)) / N / 1000000.
(** Sizes in KiB *)
Definition params_kib (C : Curve) (t : TreeType) (k : nat) : Z := Z.of_nat (fields C (129 * 2 ^ k + 2 * 2 ^ rounds (depth t k) + 6) 0) / 1024.
Definition proof_kib (C : Curve) (t : TreeType) (k : nat) : Z := Z.of_nat (liability_size C k (depth t k)) / 1024.

(** ** Facts *)
Lemma depth_spec t k f : (k, f) ∈ measured_fanouts -> full_path_length f t (depth t k).
Proof. intros H. unfold measured_fanouts in H. repeat (apply elem_of_cons in H as [[= -> ->]|H]; [destruct t; vm_compute; reflexivity|]). by apply elem_of_nil in H. Qed.
Lemma measured_cases k f : (k, f) ∈ measured_fanouts -> (2 <= k <= 9)%nat /\ f = 2 ^ Z.of_nat k - 1.
Proof. intros H. unfold measured_fanouts in H. repeat (apply elem_of_cons in H as [[= -> ->]|H]; [split; [lia|reflexivity]|]). by apply elem_of_nil in H. Qed.
Lemma measured_supported t k f : (k, f) ∈ measured_fanouts -> supported f t.
Proof. intros H. apply measured_cases in H as [Hk ->]. exists (Z.of_nat k). split; [done|]. destruct t; lia. Qed.
Lemma depth_bound t k f : (k, f) ∈ measured_fanouts -> (depth t k <= 162)%nat /\ (rounds (depth t k) <= 8)%nat.
Proof.
  intros H. unfold measured_fanouts in H.
  repeat (apply elem_of_cons in H as [[= -> ->]|H]; [destruct t; cbn [depth Nat.sub nth]; (split; [lia|apply Nat.leb_le; vm_compute; reflexivity])|]). by apply elem_of_nil in H.
Qed.
Lemma kib_bound C t k f : (k, f) ∈ measured_fanouts -> 0 <= params_kib C t k < 2 ^ 32 /\ 0 <= proof_kib C t k < 2 ^ 32.
Proof.
  intros H. pose proof (depth_bound t k f H) as [Hd Hr]. pose proof (measured_cases k f H) as [Hk _]. pose proof (g1_len_bound C) as Hg.
  assert (H2 : (2 ^ k <= 512)%nat) by (change 512%nat with (2 ^ 9)%nat; apply Nat.pow_le_mono_r; lia).
  assert (H8 : (2 ^ rounds (depth t k) <= 256)%nat) by (change 256%nat with (2 ^ 8)%nat; apply Nat.pow_le_mono_r; lia).
  unfold params_kib, proof_kib, liability_size, range_size, eq_size, ipp_size, fields.
  set (n := depth t k) in *. set (r := rounds n) in *. set (a := (2 ^ k)%nat) in *. set (b := (2 ^ r)%nat) in *. set (g := g1_len C) in *. clearbody n r a b g. clear H.
  assert (Hn : (n * (3 * k + 5) <= 162 * 32 /\ n * (2 * (k + 6) + 1) <= 162 * 31)%nat) by (split; apply Nat.mul_le_mono; lia). destruct Hn as [Hn1 Hn2].
  split; (split; [apply Z.div_pos; lia|]; apply Z.div_lt_upper_bound; [lia|]).
  - assert ((129 * a + 2 * b + 6) * g <= 140 * 512 * g)%nat by (apply Nat.mul_le_mono_r; lia). lia.
  - assert ((2 * n + 1) * g <= 400 * g /\ (2 * b + 3) * g <= 600 * g /\ (2 * r + 1) * g <= 20 * g /\ n * (3 * k + 5) * g <= 12 * 500 * g /\ n * (2 * (k + 6) + 1) * g <= 12 * 500 * g)%nat as (? & ? & ? & ? & ?) by (split_and!; apply Nat.mul_le_mono_r; lia).
    rewrite !Nat.mul_add_distr_l, !Nat.mul_assoc in *. lia.
Qed.
Lemma mapM_fmap {A B D} (h : A -> B) (f : B -> res D) l : mapM f (h <$> l) = mapM (fun x => f (h x)) l.
Proof. induction l as [|x l IH]; [done|]. rewrite fmap_cons. cbn [mapM]. rewrite IH. done. Qed.
Lemma mapM_inv {A B} (f : A -> res B) (g : A -> B) l ys : mapM f l = Ret ys -> (forall x y, x ∈ l -> f x = Ret y -> y = g x) -> ys = g <$> l.
Proof.
  revert ys. induction l as [|x l IH]; intros ys H Hg; [by injection H as <-|]. cbn [mapM] in H. apply rbind_inv in H as (y & Hy & H). apply rbind_inv in H as (zs & Hz & H). injection H as <-.
  rewrite fmap_cons. f_equal; [apply Hg; [apply elem_of_list_here|done]|]. apply IH; [done|]. intros x' y' Hx. apply Hg. by apply elem_of_list_further.
Qed.
Lemma Avg_div s : s <> [] -> Forall (fun x => 0 <= x) s -> foldr Z.add 0 s < 2 ^ 63 -> Avg s = Ret (foldr Z.add 0 s / Z.of_nat (length s)).
Proof.
  intros Hne Hp Hs. destruct (C73_average_mean s Hne Hp Hs) as (m & -> & Hm). f_equal.
  assert (Hl : 0 < Z.of_nat (length s)) by (destruct s; [done|]; cbn [length]; lia). apply Z.div_unique with (foldr Z.add 0 s - m * Z.of_nat (length s)); lia.
Qed.
Lemma Avg_replicate n x : (0 < n)%nat -> 0 <= x -> Z.of_nat n * x < 2 ^ 63 -> Avg (replicate n x) = Ret x.
Proof.
  intros Hn Hx Hs. assert (E : foldr Z.add 0 (replicate n x) = Z.of_nat n * x) by (clear; induction n as [|n IH]; [done|]; cbn [replicate foldr]; rewrite IH; lia).
  rewrite Avg_div; [rewrite E, replicate_length; f_equal; rewrite Z.mul_comm; apply Z.div_mul; lia|destruct n; [lia|done]|by apply Forall_replicate|by rewrite E].
Qed.
Lemma avg_time_mean N d : 0 < N -> small N d -> (let! a := Avg (d <$> seq 0 (Z.to_nat N)) in Ret (Milliseconds a)) = Ret (mean_ms N d).
Proof.
  intros HN [Hp Hs]. rewrite Avg_div; [|intros E; apply (f_equal length) in E; rewrite fmap_length, seq_length in E; cbn in E; lia|apply Forall_fmap, Forall_forall; intros; apply Hp|done].
  cbn [rbind]. rewrite fmap_length, seq_length, Z2Nat.id by lia. unfold mean_ms, Milliseconds. f_equal. apply Z.quot_div_nonneg; [|lia]. apply Z.div_pos; [|done].
  clear -Hp. induction (seq 0 (Z.to_nat N)) as [|i l IH]; [done|]. rewrite fmap_cons. cbn [foldr]. specialize (Hp i). lia.
Qed.
Lemma series_line field (M : nat * Z -> measurement) value : (forall k f, (k, f) ∈ measured_fanouts -> field (M (k, f)) = Ret (value k f)) ->
  series field ((fun kf => (snd kf, M kf)) <$> measured_fanouts) = Ret (line value).
Proof.
  intros H. unfold series. rewrite mapM_fmap. rewrite (mapM_ret _ (fun kf => ("(" +:+ pretty (snd kf) +:+ ", " +:+ pretty (value (fst kf) (snd kf)) +:+ ")")%string)); [done|].
  intros [k f] Hin. cbn [fst snd]. rewrite (H k f Hin). done.
Qed.
Section Program.
  Context (C : Curve).
  Lemma parallelism_some P : parallelism_ok P <-> exists b, setParallelism P = Some b.
  Proof.
    unfold parallelism_ok, setParallelism. destruct (String.eqb_spec P "0") as [->|H0]; [split; eauto|]. destruct (String.eqb_spec P "1") as [->|H1]; [cbn; split; eauto|].
    destruct (String.eqb_spec P "") as [->|H2]; cbn [orb]; [split; eauto|]. split; [tauto|]. intros [b H]. discriminate H.
  Qed.
  Lemma iterations_some I N : iterations I N <-> getIterations I = Ret N.
  Proof.
    unfold iterations, getIterations. destruct (String.eqb_spec I "") as [->|H0]; [split; [intros [[_ ->]|[? _]]; done|intros [= <-]; auto]|].
    destruct (ParseInt32 I) as [n|]; split; [intros [[? _]|[_ [= ->]]]; done|intros [= ->]; auto|intros [[? _]|[_ ?]]; done|done].
  Qed.
  Lemma tree_type_some T t : tree_type T t <-> setTreeType T = Some t.
  Proof.
    unfold tree_type, setTreeType. destruct (String.eqb_spec T "") as [->|H0]; [split; [intros [[-> _]|[_ ?]]; done|intros [= <-]; auto]|].
    destruct (String.eqb_spec T "SPARSE") as [->|H1]; [split; [intros [[-> _]|[_ ?]]; done|intros [= <-]; auto]|].
    destruct (String.eqb_spec T "DENSE") as [->|H2]; [split; [intros [[-> [?|?]]|[-> _]]; done|intros [= <-]; auto]|]. split; [intros [[_ [?|?]]|[_ ?]]; done|done].
  Qed.
  Lemma params_sizes t gen N : measurePPGen (C:=C) N t gen =
    Ret ((fun kf => (snd kf, MkMeasurement ((fun i => snd (gen (snd kf) i)) <$> seq 0 (Z.to_nat N)) [] [] [] [] [] [] (replicate (Z.to_nat N) (params_kib C t (fst kf))) [])) <$> measured_fanouts).
  Proof.
    unfold measurePPGen. change fanouts with (snd <$> measured_fanouts). rewrite mapM_fmap. apply mapM_ret. intros [k f] Hin. cbn [fst snd].
    pose proof (measured_supported t k f Hin) as Hs. pose proof (depth_spec t k f Hin) as Hfl. pose proof (measured_cases k f Hin) as [_ Ef].
    rewrite (mapM_ret _ (fun _ => params_kib C t k)); [cbn [rbind]; do 3 f_equal; rewrite <- (seq_length (Z.to_nat N) 0) at 2; generalize (seq 0 (Z.to_nat N)); intros l; clear; induction l as [|x l IH]; [done|]; rewrite fmap_cons, IH; done|].
    intros i _. destruct (C61_consistent C f t (fst (gen f i)) Hs) as (g & pp & _ & _ & HG & _). rewrite HG. cbn [rbind]. f_equal.
    destruct (C81_params_size C f t _ g pp (depth t k) k Hs HG Hfl Ef) as (E & EL & _). rewrite E, EL. unfold params_kib. apply Z.quot_div_nonneg; lia.
  Qed.
  Lemma found_paths (pp : PolPP C) rnd order id2path (h : list (string * Z)) : forall ls ls', do_calls pp rnd order id2path ls ((fun e => CSet (fst e) (snd e)) <$> h) = Ret ls' ->
    forall id z, (id, z) ∈ h -> exists p, id2path id = Ret p.
  Proof.
    induction h as [|[id0 z0] h IH]; intros ls ls' H id z Hin; [by apply elem_of_nil in Hin|]. rewrite fmap_cons in H. cbn [do_calls do_call fst snd] in H. apply rbind_inv in H as (ls1 & H1 & H).
    apply elem_of_cons in Hin as [[= -> ->]|Hin]; [|by eapply IH]. unfold LS_Set in H1. destruct (_ <? _); [done|]. apply rbind_inv in H1 as (t & H1 & _). unfold VPut in H1. apply rbind_inv in H1 as (r & H1 & _).
    unfold Put in H1. apply rbind_inv in H1 as (p & H1 & _). eauto.
  Qed.
  (** The number of a dense id drawn for fanout 3 must be at least 3^17 for a path of full length. *)
  Definition full_ids (t : TreeType) (fan : Z -> Fan) (N : Z) : Prop := t = Dense -> forall b, drawn (fan 3) N b -> 3 ^ 17 <= dense_number b.
  Lemma draws_drawn genID (fn : Fan) N id z : (id, z) ∈ draws genID (population_of totalPopulation (fn_pop fn)) (fst ∘ fst <$> (fn_run fn <$> seq 0 (Z.to_nat N))) ->
    exists b, drawn fn N b /\ id = genID b.
  Proof.
    unfold draws, population_of, drawn. change (Z.to_nat (Z.quot totalPopulation 1000)) with 1%nat. generalize 1000%nat as M.
    intros M Hin. apply elem_of_app in Hin as [Hin|Hin].
    - apply elem_of_list_join in Hin as (l & Hl & Hin). apply elem_of_list_fmap in Hin as (bs & -> & Hbs). apply elem_of_list_fmap in Hbs as (i & -> & Hi). apply elem_of_seq in Hi. assert (i = 0%nat) as -> by lia.
      apply elem_of_list_lookup in Hl as (j & Hj). rewrite list_lookup_imap in Hj. destruct ((fn_pop fn 0 <$> seq 0 M) !! j) as [b|] eqn:E; [|done]. cbn in Hj. injection Hj as <- <-.
      apply elem_of_list_lookup_2, elem_of_list_fmap in E as (j' & -> & Hj'). apply elem_of_seq in Hj'. eexists. split; [left; exists j'; split; [lia|reflexivity]|reflexivity].
    - apply elem_of_list_fmap in Hin as (b & [= -> ->] & Hb). exists b. split; [|done]. right. apply elem_of_list_fmap in Hb as (r & -> & Hr). apply elem_of_list_fmap in Hr as (i & -> & Hi). apply elem_of_seq in Hi. exists i. split; [lia|done].
  Qed.
  Lemma hex_length f L L' : In (f, L) hex_table -> In (f, L') hex_table -> L = L'.
  Proof. unfold hex_table. cbn [In]. intros H H'. repeat (destruct H as [H|H]; [injection H as <- <-; repeat (destruct H' as [H'|H']; [injection H'; intros; (congruence || lia)|]); done|]). done. Qed.
  Definition id_of (t : TreeType) : bytes -> string := match t with Sparse => sparse_id | Dense => dense_id end.
  Lemma fan_fixed k f t (fan : Z -> Fan) N α g (pp : PolPP C) ls : (k, f) ∈ measured_fanouts -> full_ids t fan N -> GeneratePublicParams (C:=C) f t α = Ret (g, pp) ->
    let fn := fan f in let h := draws (id_of t) (population_of totalPopulation (fn_pop fn)) (fst ∘ fst <$> (fn_run fn <$> seq 0 (Z.to_nat N))) in
    do_calls pp (fn_rnd fn) (fn_order fn) (g (fn_fuel fn)) (NewLiabilitySet ∅) ((fun e => CSet (fst e) (snd e)) <$> h) = Ret ls ->
    exists pathof, fixed_paths (Z.to_nat f) (g (fn_fuel fn)) pathof (depth t k) h.
  Proof.
    intros Hin Hfull HG fn h Hd. pose proof (measured_supported t k f Hin) as Hs. pose proof (depth_spec t k f Hin) as Hfl. pose proof (measured_cases k f Hin) as [Hk Ef].
    assert (Hf : 3 <= f <= 511) by (clear -Hin; unfold measured_fanouts in Hin; repeat (apply elem_of_cons in Hin as [[= -> ->]|Hin]; [lia|]); by apply elem_of_nil in Hin).
    destruct (generate_spec (C:=C) f t α Hs) as (n' & g' & pp' & k' & HG' & _ & _ & _ & Hg & _). rewrite HG in HG'. injection HG' as <- <-.
    exists (fun id => match g (fn_fuel fn) id with Ret p => p | _ => [] end). split; [lia|]. intros id z Hz. destruct (found_paths pp _ _ _ h _ _ Hd id z Hz) as [p Hp]. rewrite Hp. split; [done|].
    apply draws_drawn in Hz as (b & Hb & ->). fold fn in Hb. destruct t.
    - destruct (C34_fixed_length f g Hg) as (L & HL & Hpath). destruct (Hpath _ _ _ Hp) as (H1 & H2 & _). apply hex_table_in in Hfl. rewrite (hex_length _ _ _ Hfl HL). split; [done|].
      eapply Forall_impl; [exact H2|]. intros d Hd'. cbn beta in Hd'. lia.
    - destruct Hg as (hh & Hh & ->). destruct (C73_id_format b) as (F1 & F2 & F3). cbn [id_of] in Hp.
      destruct (C31_length f hh (dense_id b) (dense_number b) ltac:(lia) Hh F1 F2 ltac:(lia)) as (p' & L & Hp' & HL & _ & _ & Hiff). rewrite Hp in Hp'. injection Hp' as <-.
      cbn [full_path_length] in Hfl. rewrite Hfl in HL. injection HL as <-. destruct (C31_value f hh (dense_id b) (dense_number b) p ltac:(lia) Hh F2 ltac:(lia) Hp) as [_ H2].
      split; [|eapply Forall_impl; [exact H2|]; intros d Hd'; cbn beta in Hd'; lia]. apply Hiff. clear -Hin Hfull Hb F3.
      unfold measured_fanouts in Hin. apply elem_of_cons in Hin as [[= -> ->]|Hin]; [apply (Hfull eq_refl b Hb)|].
      etransitivity; [|exact (proj1 F3)].
      repeat (apply elem_of_cons in Hin as [[= -> ->]|Hin]; [vm_compute; discriminate|]). by apply elem_of_nil in Hin.
  Qed.

  (** ** Theorems *)
  (** The report consists of these nine lines.  No assumption is made on the draws of a sparse benchmark. *)
  Theorem C89_report P I T gen fan N t lines :
    parallelism_ok P -> iterations I N -> tree_type T t -> (forall f k b m, fn_order (fan f) k b m ≡ₚ map_to_list m) -> full_ids t fan N ->
    (forall f, f ∈ measured_fanouts.*2 -> small N (fun i => snd (gen t f i)) /\ small N (fn_proofTime (fan f)) /\ small N (fn_verifyTime (fan f)) /\ small N (fn_equalityTimeProve (fan f)) /\
       small N (fn_sumTimeProve (fan f)) /\ small N (fn_equalityTimeVerify (fan f)) /\ small N (fn_sumTimeVerify (fan f))) ->
    main (C:=C) P I T gen fan = Ret (Some lines) ->
    1 <= N /\ lines =
      [("PP sizes:", line (fun k _ => params_kib C t k)); ("Proof sizes:", line (fun k _ => proof_kib C t k));
       ("PP gen times:", line (fun _ f => mean_ms N (fun i => snd (gen t f i)))); ("proof times:", line (fun _ f => mean_ms N (fn_proofTime (fan f))));
       ("verify times:", line (fun _ f => mean_ms N (fn_verifyTime (fan f)))); ("equality proof times:", line (fun _ f => mean_ms N (fn_equalityTimeProve (fan f))));
       ("sum proof times:", line (fun _ f => mean_ms N (fn_sumTimeProve (fan f)))); ("verify equality times:", line (fun _ f => mean_ms N (fn_equalityTimeVerify (fan f))));
       ("verify sum times:", line (fun _ f => mean_ms N (fn_sumTimeVerify (fan f))))]%string.
  Proof.
    intros HP HI HT Ho Hfull Hsm H. apply parallelism_some in HP as [b HP]. assert (HN : N < 2 ^ 31).
    { destruct HI as [[_ ->]|[_ HI]]; [lia|]. unfold ParseInt32 in HI. destruct (parse_int 10 I); [|done]. destruct ((- 2 ^ 31 <=? z) && (z <? 2 ^ 31)) eqn:E; [|done]. injection HI as <-. apply andb_true_iff in E as [_ E]. lia. }
    apply iterations_some in HI. apply tree_type_some in HT. unfold main in H. rewrite HP, HI in H. cbn [rbind] in H. rewrite !params_sizes in H. cbn [rbind] in H. rewrite HT in H.
    apply rbind_inv in H as (m & Hm & H). apply rbind_inv in H as (ls & Hr & H). injection H as ->.
    set (ppm := fun t => (fun kf : nat * Z => (snd kf, MkMeasurement ((fun i => snd (gen t (snd kf) i)) <$> seq 0 (Z.to_nat N)) [] [] [] [] [] [] (replicate (Z.to_nat N) (params_kib C t (fst kf))) [])) <$> measured_fanouts).
    assert (Hm' : measureConstructProofVerify (C:=C) N (ppm t) totalPopulation t (id_of t) fan = Ret m) by (destruct t; exact Hm). clear Hm. rename Hm' into Hm.
    unfold measureConstructProofVerify, ppm in Hm. rewrite mapM_fmap in Hm. cbn [fst snd ms_ppGenTime ms_ppSize] in Hm. clear ppm.
    (* one fanout *)
    assert (Hone : forall k f sizes tot, (k, f) ∈ measured_fanouts ->
      benchmarkFanout (C:=C) f t (fn_α (fan f)) (fn_fuel (fan f)) (fn_rnd (fan f)) (fn_order (fan f)) (id_of t) (population_of totalPopulation (fn_pop (fan f))) (fn_run (fan f) <$> seq 0 (Z.to_nat N)) = Ret (sizes, tot) ->
      (0 < Z.to_nat N)%nat /\ sizes = replicate (Z.to_nat N) (proof_kib C t k)).
    { intros k f sizes tot Hin Hb. pose proof (measured_supported t k f Hin) as Hs. pose proof (measured_cases k f Hin) as [_ Ef].
      destruct (C61_consistent C f t (fn_α (fan f)) Hs) as (g & pp & _ & _ & HG & _). pose proof Hb as Hb'. unfold benchmarkFanout in Hb'. rewrite HG in Hb'. cbn [rbind] in Hb'. rewrite draws_calls in Hb'. apply rbind_inv in Hb' as (ls1 & Hd & _).
      destruct (fan_fixed k f t fan N _ g pp ls1 Hin Hfull HG Hd) as [pathof Hfix].
      destruct (C88_report C f t (fn_α (fan f)) g pp (fn_fuel (fan f)) (fn_rnd (fan f)) (fn_order (fan f)) (id_of t) pathof (depth t k) (population_of totalPopulation (fn_pop (fan f))) (fn_run (fan f) <$> seq 0 (Z.to_nat N)) k sizes tot Hs Ef HG (depth_spec t k f Hin) (Ho f) Hfix) as (Hne & Hsz & _); [| |exact Hb|].
      - apply Forall_fmap, Forall_forall. intros i _. cbv beta. unfold compose. rewrite fmap_length, seq_length. apply le_n.
      - unfold population_of. rewrite !fmap_length, !seq_length. change (Z.to_nat (Z.quot totalPopulation 1000)) with 1%nat. lia.
      - rewrite fmap_length, seq_length in Hsz. split; [|exact Hsz]. destruct (Z.to_nat N); [done|lia]. }
    set (M := fun kf : nat * Z => MkMeasurement ((fun i => snd (gen t (snd kf) i)) <$> seq 0 (Z.to_nat N)) (fn_proofTime (fan (snd kf)) <$> seq 0 (Z.to_nat N)) (fn_verifyTime (fan (snd kf)) <$> seq 0 (Z.to_nat N))
      (fn_equalityTimeProve (fan (snd kf)) <$> seq 0 (Z.to_nat N)) (fn_sumTimeProve (fan (snd kf)) <$> seq 0 (Z.to_nat N)) (fn_equalityTimeVerify (fan (snd kf)) <$> seq 0 (Z.to_nat N)) (fn_sumTimeVerify (fan (snd kf)) <$> seq 0 (Z.to_nat N))
      (replicate (Z.to_nat N) (params_kib C t (fst kf))) (replicate (Z.to_nat N) (proof_kib C t (fst kf)))).
    assert (HN1 : (0 < Z.to_nat N)%nat).
    { destruct (mapM_lookup _ _ _ 0%nat (2%nat, 3) Hm eq_refl) as (y & _ & Hy). cbn [fst snd] in Hy. apply rbind_inv in Hy as ([sizes tot] & Hy & _). exact (proj1 (Hone 2%nat 3 sizes tot ltac:(apply elem_of_list_here) Hy)). }
    assert (Em : m = (fun kf => (snd kf, M kf)) <$> measured_fanouts).
    { apply (mapM_inv _ _ _ _ Hm). intros [k f] y Hin Hy. cbn [fst snd] in Hy. apply rbind_inv in Hy as ([sizes tot] & Hy & E). injection E as <-. rewrite (proj2 (Hone k f sizes tot Hin Hy)). reflexivity. }
    split; [lia|]. subst m. unfold report in Hr.
    rewrite (series_line _ M (fun k _ => params_kib C t k)) in Hr by (intros k f Hin; unfold M; cbn [fst snd ms_ppSize]; destruct (kib_bound C t k f Hin) as [[? ?] _]; apply Avg_replicate; [done|done|nia]).
    cbn [rbind] in Hr. rewrite (series_line _ M (fun k _ => proof_kib C t k)) in Hr by (intros k f Hin; unfold M; cbn [fst snd ms_proofSize]; destruct (kib_bound C t k f Hin) as [_ [? ?]]; apply Avg_replicate; [done|done|nia]).
    cbn [rbind] in Hr.
    assert (Ht : forall (d : Z -> nat -> Z) field, (forall kf, field (M kf) = d (snd kf) <$> seq 0 (Z.to_nat N)) -> (forall f, f ∈ measured_fanouts.*2 -> small N (d f)) -> series (avg_time field) ((fun kf => (snd kf, M kf)) <$> measured_fanouts) = Ret (line (fun _ f => mean_ms N (d f)))).
    { intros d field E Hd. apply series_line. intros k f Hin. unfold avg_time. rewrite E. cbn [snd]. apply avg_time_mean; [lia|apply Hd]. apply elem_of_list_fmap. by exists (k, f). }
    rewrite (Ht (fun f i => snd (gen t f i)) ms_ppGenTime) in Hr by (done || (intros f Hin; destruct (Hsm f Hin) as (S1 & S2 & S3 & S4 & S5 & S6 & S7); assumption)). cbn [rbind] in Hr.
    rewrite (Ht (fun f => fn_proofTime (fan f)) ms_proofTime) in Hr by (done || (intros f Hin; destruct (Hsm f Hin) as (S1 & S2 & S3 & S4 & S5 & S6 & S7); assumption)). cbn [rbind] in Hr.
    rewrite (Ht (fun f => fn_verifyTime (fan f)) ms_verifyTime) in Hr by (done || (intros f Hin; destruct (Hsm f Hin) as (S1 & S2 & S3 & S4 & S5 & S6 & S7); assumption)). cbn [rbind] in Hr.
    rewrite (Ht (fun f => fn_equalityTimeProve (fan f)) ms_equalityTimeProve) in Hr by (done || (intros f Hin; destruct (Hsm f Hin) as (S1 & S2 & S3 & S4 & S5 & S6 & S7); assumption)). cbn [rbind] in Hr.
    rewrite (Ht (fun f => fn_sumTimeProve (fan f)) ms_sumTimeProve) in Hr by (done || (intros f Hin; destruct (Hsm f Hin) as (S1 & S2 & S3 & S4 & S5 & S6 & S7); assumption)). cbn [rbind] in Hr.
    rewrite (Ht (fun f => fn_equalityTimeVerify (fan f)) ms_equalityTimeVerify) in Hr by (done || (intros f Hin; destruct (Hsm f Hin) as (S1 & S2 & S3 & S4 & S5 & S6 & S7); assumption)). cbn [rbind] in Hr.
    rewrite (Ht (fun f => fn_sumTimeVerify (fan f)) ms_sumTimeVerify) in Hr by (done || (intros f Hin; destruct (Hsm f Hin) as (S1 & S2 & S3 & S4 & S5 & S6 & S7); assumption)). cbn [rbind] in Hr.
    injection Hr as <-. reflexivity.
  Qed.

  (** Exit code 2: exactly for other values of PARALLELISM, or of TREETYPE when the number of iterations can be read. *)
  Theorem C89_exit P I T gen fan :
    main (C:=C) P I T gen fan = Ret None <-> ~ parallelism_ok P \/ (parallelism_ok P /\ (exists N, iterations I N) /\ ~ exists t, tree_type T t).
  Proof.
    destruct (setParallelism P) as [b|] eqn:EP.
    - assert (HP : parallelism_ok P) by (apply parallelism_some; eauto). unfold main. rewrite EP. destruct (getIterations I) as [N| |] eqn:EI; cbn [rbind].
      + assert (HI : exists N, iterations I N) by (exists N; by apply iterations_some). rewrite !params_sizes. cbn [rbind]. destruct (setTreeType T) as [t|] eqn:ET.
        * assert (HT : tree_type T t) by (by apply tree_type_some). split.
          -- intros H. apply rbind_inv in H as (? & _ & H). apply rbind_inv in H as (? & _ & H). discriminate H.
          -- intros [H|(_ & _ & H)]; [done|]. exfalso. apply H. eauto.
        * split; [|done]. intros _. right. split; [done|]. split; [done|]. intros [t H]. apply tree_type_some in H. congruence.
      + split; [done|]. intros [H|(_ & [N H] & _)]; [done|]. apply iterations_some in H. congruence.
      + split; [done|]. intros [H|(_ & [N H] & _)]; [done|]. apply iterations_some in H. congruence.
    - unfold main. rewrite EP. split; [|done]. intros _. left. intros H. apply parallelism_some in H as [b H]. congruence.
  Qed.
  (** ITERATIONS that is no number of 32 bits: a panic.  Zero or a negative number: whatever happens, no report. *)
  Theorem C89_iterations P I T gen fan : parallelism_ok P ->
    ((forall N, ~ iterations I N) -> main (C:=C) P I T gen fan = Panic) /\
    (forall N lines, iterations I N -> N <= 0 -> main (C:=C) P I T gen fan <> Ret (Some lines)).
  Proof.
    intros HP. apply parallelism_some in HP as [b HP]. unfold main. rewrite HP. split.
    - intros HI. destruct (getIterations I) as [N| |] eqn:E; [|done|]; [exfalso; apply (HI N); by apply iterations_some|].
      unfold getIterations in E. destruct (String.eqb I ""); [done|]. destruct (ParseInt32 I); done.
    - intros N lines HI HN. apply iterations_some in HI. rewrite HI. cbn [rbind]. rewrite !params_sizes. cbn [rbind]. destruct (setTreeType T) as [t|]; [|done].
      replace (Z.to_nat N) with 0%nat by lia. intros H. apply rbind_inv in H as (m & Hm & _). 
      assert (E : exists y, measureConstructProofVerify (C:=C) N ((fun kf => (snd kf, MkMeasurement [] [] [] [] [] [] [] [] [])) <$> measured_fanouts) totalPopulation t (id_of t) fan = Ret y) by (exists m; destruct t; exact Hm).
      clear m Hm. destruct E as [m Hm]. unfold measureConstructProofVerify in Hm. rewrite mapM_fmap in Hm. destruct (mapM_lookup _ _ _ 0%nat (2%nat, 3) Hm eq_refl) as (y & _ & Hy).
      cbn [fst snd] in Hy. apply rbind_inv in Hy as ([sizes tot] & Hy & _). replace (Z.to_nat N) with 0%nat in Hy by lia. change (seq 0 0) with (@nil nat) in Hy. change (fn_run (fan 3) <$> []) with (@nil (bytes * ProofCoins * (Z * Z))) in Hy.
      unfold benchmarkFanout in Hy. apply rbind_inv in Hy as ([g pp] & _ & Hy). apply rbind_inv in Hy as (ls & _ & Hy). apply rbind_inv in Hy as ([ls' root] & _ & Hy). destruct root as [[V W]|]; [|done].
      cbn [mapM rbind] in Hy. apply rbind_inv in Hy as (tot' & Hy & _). unfold benchmarkVerifyTot in Hy. cbn in Hy. discriminate Hy.
  Qed.
  (** A report is printed exactly when the benchmark of every fanout completes. *)
  Theorem C89_completes P I T gen fan N t : parallelism_ok P -> iterations I N -> tree_type T t -> 1 <= N ->
    ((exists lines, main (C:=C) P I T gen fan = Ret (Some lines)) <->
     forall k f, (k, f) ∈ measured_fanouts -> exists sizes tot,
       benchmarkFanout (C:=C) f t (fn_α (fan f)) (fn_fuel (fan f)) (fn_rnd (fan f)) (fn_order (fan f)) (id_of t)
         [fn_pop (fan f) 0 <$> seq 0 1000] (fn_run (fan f) <$> seq 0 (Z.to_nat N)) = Ret (sizes, tot)).
  Proof.
    intros HP HI HT HN. apply parallelism_some in HP as [b HP]. apply iterations_some in HI. apply tree_type_some in HT. unfold main. rewrite HP, HI. cbn [rbind]. rewrite !params_sizes. cbn [rbind]. rewrite HT.
    set (ppm := fun t => (fun kf : nat * Z => (snd kf, MkMeasurement ((fun i => snd (gen t (snd kf) i)) <$> seq 0 (Z.to_nat N)) [] [] [] [] [] [] (replicate (Z.to_nat N) (params_kib C t (fst kf))) [])) <$> measured_fanouts).
    match goal with |- context [rbind ?x ?k] => assert (E : x = measureConstructProofVerify (C:=C) N (ppm t) totalPopulation t (id_of t) fan) by (destruct t; reflexivity); rewrite E; clear E end.
    assert (Epop : forall f, population_of totalPopulation (fn_pop (fan f)) = [fn_pop (fan f) 0 <$> seq 0 1000]) by (intros f; unfold population_of; change (Z.to_nat (Z.quot totalPopulation 1000)) with 1%nat; reflexivity).
    unfold measureConstructProofVerify, ppm. rewrite mapM_fmap. cbn [fst snd ms_ppGenTime ms_ppSize]. split.
    - intros [lines H] k f Hin. apply rbind_inv in H as (m & Hm & _). apply elem_of_list_lookup in Hin as [i Hi]. destruct (mapM_lookup _ _ _ i _ Hm Hi) as (y & _ & Hy). cbn [fst snd] in Hy.
      apply rbind_inv in Hy as ([sizes tot] & Hy & _). exists sizes, tot. rewrite <- Epop. exact Hy.
    - intros Hall. destruct (mapM_total (fun x : nat * Z => let! '(sizes, _) := benchmarkFanout (C:=C) (snd x) t (fn_α (fan (snd x))) (fn_fuel (fan (snd x))) (fn_rnd (fan (snd x))) (fn_order (fan (snd x))) (id_of t) (population_of totalPopulation (fn_pop (fan (snd x)))) (fn_run (fan (snd x)) <$> seq 0 (Z.to_nat N)) in
        Ret (snd x, MkMeasurement ((fun i => snd (gen t (snd x) i)) <$> seq 0 (Z.to_nat N)) (fn_proofTime (fan (snd x)) <$> seq 0 (Z.to_nat N)) (fn_verifyTime (fan (snd x)) <$> seq 0 (Z.to_nat N)) (fn_equalityTimeProve (fan (snd x)) <$> seq 0 (Z.to_nat N)) (fn_sumTimeProve (fan (snd x)) <$> seq 0 (Z.to_nat N))
          (fn_equalityTimeVerify (fan (snd x)) <$> seq 0 (Z.to_nat N)) (fn_sumTimeVerify (fan (snd x)) <$> seq 0 (Z.to_nat N)) (replicate (Z.to_nat N) (params_kib C t (fst x))) sizes)) measured_fanouts) as [m Hm].
      { intros [k f] Hin. cbn [fst snd]. destruct (Hall k f Hin) as (sizes & tot & Hb). rewrite Epop, Hb. cbn [rbind]. eauto. }
      rewrite Hm. cbn [rbind].
      assert (Hser : forall field : measurement -> list Z, (forall x y, (x, y) ∈ m -> field y <> []) -> (exists s, series (fun m => Avg (field m)) m = Ret s) /\ exists s, series (avg_time field) m = Ret s).
      { intros field Hne. unfold series, avg_time. split.
        - destruct (mapM_total (fun fm : Z * measurement => let! a := Avg (field fm.2) in Ret ("(" +:+ pretty fm.1 +:+ ", " +:+ pretty a +:+ ")")%string) m) as [ys ->]; [|cbn [rbind]; eauto].
          intros [x y] Hxy. cbn [fst snd]. destruct (Avg (field y)) as [a| |] eqn:E; [cbn [rbind]; eauto| |unfold Avg in E; destruct (length (field y) =? 0)%nat; discriminate E]. exfalso. apply C73_average_panics in E. exact (Hne x y Hxy E).
        - destruct (mapM_total (fun fm : Z * measurement => let! a := (let! d := Avg (field fm.2) in Ret (Milliseconds d)) in Ret ("(" +:+ pretty fm.1 +:+ ", " +:+ pretty a +:+ ")")%string) m) as [ys ->]; [|cbn [rbind]; eauto].
          intros [x y] Hxy. cbn [fst snd]. destruct (Avg (field y)) as [a| |] eqn:E; [cbn [rbind]; eauto| |unfold Avg in E; destruct (length (field y) =? 0)%nat; discriminate E]. exfalso. apply C73_average_panics in E. exact (Hne x y Hxy E). }
      assert (Hy : forall x y, (x, y) ∈ m -> exists k sizes tot, (k, x) ∈ measured_fanouts /\ benchmarkFanout (C:=C) x t (fn_α (fan x)) (fn_fuel (fan x)) (fn_rnd (fan x)) (fn_order (fan x)) (id_of t) (population_of totalPopulation (fn_pop (fan x))) (fn_run (fan x) <$> seq 0 (Z.to_nat N)) = Ret (sizes, tot) /\
        y = MkMeasurement ((fun i => snd (gen t x i)) <$> seq 0 (Z.to_nat N)) (fn_proofTime (fan x) <$> seq 0 (Z.to_nat N)) (fn_verifyTime (fan x) <$> seq 0 (Z.to_nat N)) (fn_equalityTimeProve (fan x) <$> seq 0 (Z.to_nat N)) (fn_sumTimeProve (fan x) <$> seq 0 (Z.to_nat N))
          (fn_equalityTimeVerify (fan x) <$> seq 0 (Z.to_nat N)) (fn_sumTimeVerify (fan x) <$> seq 0 (Z.to_nat N)) (replicate (Z.to_nat N) (params_kib C t k)) sizes).
      { intros x y Hxy. apply elem_of_list_lookup in Hxy as [i Hi]. pose proof (mapM_length _ _ _ Hm) as HL. destruct (lookup_lt_is_Some_2 measured_fanouts i ltac:(rewrite <- HL; by eapply lookup_lt_Some)) as [[k f] Hkf].
        destruct (mapM_lookup _ _ _ i _ Hm Hkf) as (y' & Hy' & Hf). rewrite Hi in Hy'. injection Hy' as <-. cbn [fst snd] in Hf. apply rbind_inv in Hf as ([sizes tot] & Hf & E). injection E as <- <-.
        exists k, sizes, tot. split; [by eapply elem_of_list_lookup_2|]. split; [exact Hf|reflexivity]. }
      assert (HS : exists N', Z.to_nat N = S N') by (exists (Z.to_nat N - 1)%nat; lia). destruct HS as [N' HN'].
      assert (Hsz : forall x y, (x, y) ∈ m -> ms_proofSize y <> []).
      { intros x y Hxy. destruct (Hy x y Hxy) as (k & sizes & tot & _ & Hb & ->). cbn [ms_proofSize]. intros ->. unfold benchmarkFanout in Hb. apply rbind_inv in Hb as ([g pp] & _ & Hb). apply rbind_inv in Hb as (ls & _ & Hb).
        apply rbind_inv in Hb as ([ls' root] & _ & Hb). destruct root as [[V W]|]; [|done]. apply rbind_inv in Hb as (sz & Hsz & Hb). apply rbind_inv in Hb as (tt & _ & Hb). injection Hb as -> _. apply mapM_length in Hsz. rewrite fmap_length, seq_length in Hsz. cbn in Hsz. lia. }
      assert (Hne : forall field, (forall k x sizes, field (MkMeasurement ((fun i => snd (gen t x i)) <$> seq 0 (Z.to_nat N)) (fn_proofTime (fan x) <$> seq 0 (Z.to_nat N)) (fn_verifyTime (fan x) <$> seq 0 (Z.to_nat N)) (fn_equalityTimeProve (fan x) <$> seq 0 (Z.to_nat N)) (fn_sumTimeProve (fan x) <$> seq 0 (Z.to_nat N))
          (fn_equalityTimeVerify (fan x) <$> seq 0 (Z.to_nat N)) (fn_sumTimeVerify (fan x) <$> seq 0 (Z.to_nat N)) (replicate (Z.to_nat N) (params_kib C t k)) sizes) <> ([] : list Z)) -> forall x y, (x, y) ∈ m -> field y <> []).
      { intros field Hf x y Hxy. destruct (Hy x y Hxy) as (k & sizes & tot & _ & _ & ->). apply Hf. }
      unfold report.
      destruct (proj1 (Hser ms_ppSize (Hne ms_ppSize ltac:(intros; rewrite HN'; discriminate)))) as [s1 ->]. cbn [rbind].
      destruct (proj1 (Hser ms_proofSize Hsz)) as [s2 ->]. cbn [rbind].
      destruct (proj2 (Hser ms_ppGenTime (Hne ms_ppGenTime ltac:(intros; rewrite HN'; discriminate)))) as [s3 ->]. cbn [rbind].
      destruct (proj2 (Hser ms_proofTime (Hne ms_proofTime ltac:(intros; rewrite HN'; discriminate)))) as [s4 ->]. cbn [rbind].
      destruct (proj2 (Hser ms_verifyTime (Hne ms_verifyTime ltac:(intros; rewrite HN'; discriminate)))) as [s5 ->]. cbn [rbind].
      destruct (proj2 (Hser ms_equalityTimeProve (Hne ms_equalityTimeProve ltac:(intros; rewrite HN'; discriminate)))) as [s6 ->]. cbn [rbind].
      destruct (proj2 (Hser ms_sumTimeProve (Hne ms_sumTimeProve ltac:(intros; rewrite HN'; discriminate)))) as [s7 ->]. cbn [rbind].
      destruct (proj2 (Hser ms_equalityTimeVerify (Hne ms_equalityTimeVerify ltac:(intros; rewrite HN'; discriminate)))) as [s8 ->]. cbn [rbind].
      destruct (proj2 (Hser ms_sumTimeVerify (Hne ms_sumTimeVerify ltac:(intros; rewrite HN'; discriminate)))) as [s9 ->]. cbn [rbind]. eauto.
  Qed.
  (** The dense benchmark prints a report, if for every fanout each measured number differs from all others drawn modulo fanout^(depth-1), the vectors of coins
      have the right lengths and no challenge is zero. *)
  Theorem C89_dense P I gen fan N : parallelism_ok P -> iterations I N -> 1 <= N -> (forall f k b m, fn_order (fan f) k b m ≡ₚ map_to_list m) -> full_ids Dense fan N ->
    (forall k f, (k, f) ∈ measured_fanouts -> let fn := fan f in let runs := fn_run fn <$> seq 0 (Z.to_nat N) in let population := fn_pop fn 0 <$> seq 0 1000 in let buffs := fst ∘ fst <$> runs in
       (forall b, b ∈ buffs -> length (filter (fun b' => dense_number b' mod f ^ Z.of_nat (depth Dense k - 1) = dense_number b mod f ^ Z.of_nat (depth Dense k - 1)) (population ++ buffs)) = 1%nat) /\
       forall g (pp : PolPP C) ls, GeneratePublicParams f Dense (fn_α fn) = Ret (g, pp) ->
         Forall (fun run => coins_fit pp (snd (fst run))) runs /\
         (do_calls pp (fn_rnd fn) (fn_order fn) (g (fn_fuel fn)) (NewLiabilitySet ∅) (bench_calls dense_id [population] buffs) = Ret ls ->
          Forall (fun run => lucky pp (g (fn_fuel fn)) ls (dense_id (fst (fst run))) (snd (fst run))) runs)) ->
    exists lines, main (C:=C) P I "DENSE" gen fan = Ret (Some lines).
  Proof.
    intros HP HI HN Ho Hfull H. apply (C89_completes P I "DENSE" gen fan N Dense HP HI ltac:(right; done) HN). intros k f Hin. destruct (H k f Hin) as [Honce Hcl]. clear H.
    pose proof (measured_cases k f Hin) as [Hk Ef]. pose proof (depth_spec Dense k f Hin) as Hfl. cbn [full_path_length] in Hfl.
    destruct (C61_consistent C f Dense (fn_α (fan f)) (measured_supported Dense k f Hin)) as (g & pp & _ & _ & HG & _).
    assert (HN31 : N < 2 ^ 31).
    { destruct HI as [[_ ->]|[_ HI]]; [lia|]. unfold ParseInt32 in HI. destruct (parse_int 10 I); [|done]. destruct ((- 2 ^ 31 <=? z) && (z <? 2 ^ 31)) eqn:E; [|done]. injection HI as <-. apply andb_true_iff in E as [_ E]. lia. }
    revert Honce Hcl. generalize (eq_refl (fn_pop (fan f) 0 <$> seq 0 1000)). generalize (fn_pop (fan f) 0 <$> seq 0 1000) at 1 3 4 5. intros pop Epop Honce Hcl.
    destruct (Hcl g pp (NewLiabilitySet ∅) HG) as [Hco _]. subst f.
    destruct (C88_dense C k (fn_α (fan (2 ^ Z.of_nat k - 1))) g pp (fn_fuel (fan (2 ^ Z.of_nat k - 1))) (fn_rnd (fan (2 ^ Z.of_nat k - 1))) (fn_order (fan (2 ^ Z.of_nat k - 1))) [pop] (fn_run (fan (2 ^ Z.of_nat k - 1)) <$> seq 0 (Z.to_nat N)) (depth Dense k) ltac:(lia) HG Hfl (Ho _)) as (ls & Hd & Hb).
    - apply Forall_singleton. rewrite Epop, fmap_length, seq_length. apply le_n.
    - rewrite fmap_length, seq_length. cbn [length]. lia.
    - intros E. apply (f_equal length) in E. rewrite fmap_length, seq_length in E. cbn [length] in E. lia.
    - exact Hco.
    - intros -> b Hbin. apply (Hfull eq_refl). cbn [mjoin list_join] in Hbin. rewrite app_nil_r in Hbin. apply elem_of_app in Hbin as [Hbin|Hbin].
      + left. rewrite Epop in Hbin. apply elem_of_list_fmap in Hbin as (j & -> & Hj). apply elem_of_seq in Hj. exists j. split; [lia|reflexivity].
      + right. apply elem_of_list_fmap in Hbin as (r & -> & Hr). apply elem_of_list_fmap in Hr as (i & -> & Hi). apply elem_of_seq in Hi. exists i. split; [lia|reflexivity].
    - intros b Hbin. cbn [mjoin list_join]. rewrite app_nil_r. exact (Honce b Hbin).
    - destruct (Hcl g pp ls HG) as [_ Hl]. destruct (Hb (Hl Hd)) as [tot Ht]. eexists _, tot. exact Ht.
  Qed.
End Program.

(** Every number of 32 bits can be given in decimal. *)
Lemma parse_digits_pretty x s : parse_digits 10 0 (pretty_N_go x s) = parse_digits 10 (Z.of_N x) s.
Proof.
  revert s. induction (N.lt_wf_0 x) as [x _ IH]. intros s. destruct (N.eq_dec x 0) as [->|Hx]; [by rewrite pretty_N_go_0|]. rewrite pretty_N_go_step by lia. rewrite IH by (apply N.div_lt; lia). cbn [parse_digits].
  replace (x `mod` 10)%N with (Z.to_N (Z.of_N x mod 10)) by (rewrite Z2N.inj_mod by lia; rewrite N2Z.id; done).
  rewrite dec_char by (apply Z.mod_pos_bound; lia). pose proof (Z.mod_pos_bound (Z.of_N x) 10 ltac:(lia)).
  assert (E : char_val (Ascii.ascii_of_N (Z.to_N (48 + Z.of_N x mod 10))) = Z.of_N x mod 10).
  { remember (Z.of_N x mod 10) as d eqn:Ed. clear Ed. assert (D : d = 0 \/ d = 1 \/ d = 2 \/ d = 3 \/ d = 4 \/ d = 5 \/ d = 6 \/ d = 7 \/ d = 8 \/ d = 9) by lia.
    repeat (destruct D as [->|D]; [vm_compute; reflexivity|]). subst d. vm_compute. reflexivity. }
  rewrite E. destruct (Z.ltb_spec (Z.of_N x mod 10) 10); [|lia]. f_equal. rewrite N2Z.inj_div. pose proof (Z.div_mod (Z.of_N x) 10). lia.
Qed.
Lemma parse_pretty_N x : exists a s, pretty x = String a s /\ parse_digits 10 0 (String a s) = Some (Z.of_N x).
Proof.
  destruct (N.eq_dec x 0) as [->|Hx]; [exists (Ascii.ascii_of_N 48), ""%string; split; reflexivity|]. unfold pretty, pretty_N. rewrite decide_False by done.
  pose proof (parse_digits_pretty x "") as H. destruct (pretty_N_go x "") as [|a s] eqn:E; [cbn in H; injection H as H; lia|]. exists a, s. split; [done|exact H].
Qed.
Theorem C89_decimal N : - 2 ^ 31 <= N < 2 ^ 31 -> iterations (pretty N) N.
Proof.
  intros HN. assert (Hneg : forall a s x, parse_digits 10 0 (String a s) = Some x -> byte_of_ascii a <> 43 /\ byte_of_ascii a <> 45).
  { intros a s x H. cbn [parse_digits] in H. split; intros E; unfold char_val in H; rewrite E in H; discriminate H. }
  assert (HR : (- 2 ^ 31 <=? N) && (N <? 2 ^ 31) = true) by (apply andb_true_iff; lia).
  right. destruct N as [|p|p].
  - split; [done|reflexivity].
  - change (pretty (Z.pos p)) with (pretty (N.pos p)). destruct (parse_pretty_N (N.pos p)) as (a & s & -> & H). split; [done|]. unfold ParseInt32, parse_int. destruct (Hneg a s _ H) as [H1 H2].
    destruct (Z.eqb_spec (byte_of_ascii a) 43); [done|]. destruct (Z.eqb_spec (byte_of_ascii a) 45); [done|]. cbn [parse_nat]. rewrite H. change (Z.of_N (N.pos p)) with (Z.pos p). rewrite HR. done.
  - change (pretty (Z.neg p)) with ("-" +:+ pretty (N.pos p))%string. destruct (parse_pretty_N (N.pos p)) as (a & s & -> & H). split; [done|]. change ("-" +:+ String a s)%string with (String (Ascii.ascii_of_N 45) (String a s)).
    unfold ParseInt32, parse_int. change (byte_of_ascii (Ascii.ascii_of_N 45) =? 43) with false. change (byte_of_ascii (Ascii.ascii_of_N 45) =? 45) with true. cbv iota. unfold parse_nat. rewrite H. change (Z.opp <$> Some (Z.of_N (N.pos p))) with (Some (Z.neg p)). cbv iota. rewrite HR. done.
Qed.

(** ** Examples *)
(** One iteration on the toy curve, for all eight fanouts: the population consists of one number, the measured number is another one. *)
Definition ex_fan_coins (f : Z) : ProofCoins := match GeneratePublicParams (C:=toy) f Dense (zr 5) with Ret (_, pp) => ex_coins pp | _ => MkPC (fun _ => toy_coins 0) [] (zr 0) [] (zr 0) (zr 0) end.
Definition ex_fan (f : Z) : Fan :=
  MkFan (zr 5) 0 ex_rnd ex_order (fun _ _ => ex_buff 987654321) (fun _ => (ex_buff 222222222, ex_fan_coins f, (1, 2)))
    (fun _ => 3000000) (fun _ => 2000000) (fun _ => 1000000) (fun _ => 2500000) (fun _ => 1500000) (fun _ => 999999).
Definition ex_gen (t : TreeType) (f : Z) (i : nat) : Zr * Z := (zr 7, f * 1000000).
Lemma ex_small (d : nat -> Z) c : (forall i, d i = c) -> 0 <= c < 2 ^ 63 -> small 1 d.
Proof. intros E Hc. split; [intros i; rewrite E; lia|]. change (Z.to_nat 1) with 1%nat. cbn [seq fmap list_fmap foldr]. rewrite E. lia. Qed.
Example C89_nonvacuous :
  parallelism_ok "" /\ iterations "1" 1 /\ tree_type "DENSE" Dense /\ (forall f k b m, fn_order (ex_fan f) k b m ≡ₚ map_to_list m) /\ full_ids Dense ex_fan 1 /\
  (forall f, f ∈ measured_fanouts.*2 -> small 1 (fun i => snd (ex_gen Dense f i)) /\ small 1 (fn_proofTime (ex_fan f)) /\ small 1 (fn_verifyTime (ex_fan f)) /\ small 1 (fn_equalityTimeProve (ex_fan f)) /\
       small 1 (fn_sumTimeProve (ex_fan f)) /\ small 1 (fn_equalityTimeVerify (ex_fan f)) /\ small 1 (fn_sumTimeVerify (ex_fan f))) /\
  exists lines, main (C:=toy) "" "1" "DENSE" ex_gen ex_fan = Ret (Some lines).
Proof.
  assert (HI : iterations "1" 1) by (right; split; [done|vm_compute; reflexivity]). split; [by left|]. split; [exact HI|]. split; [by right|].
  assert (Ho : forall f k b m, fn_order (ex_fan f) k b m ≡ₚ map_to_list m) by (intros f; exact ex_order_perm). split; [exact Ho|].
  assert (Hfull : full_ids Dense ex_fan 1) by (intros _ b [(j & _ & ->)|(i & _ & ->)]; vm_compute; discriminate). split; [exact Hfull|]. split.
  { intros f Hf. assert (Hb : 3 <= f <= 511) by (clear -Hf; unfold measured_fanouts in Hf; cbn [fmap list_fmap snd] in Hf; repeat (apply elem_of_cons in Hf as [->|Hf]; [lia|]); by apply elem_of_nil in Hf).
    split; [apply (ex_small _ (f * 1000000)); [done|lia]|]. cbn [ex_fan fn_proofTime fn_verifyTime fn_equalityTimeProve fn_sumTimeProve fn_equalityTimeVerify fn_sumTimeVerify].
    split_and!; (eapply ex_small; [intros; reflexivity|lia]). }
  apply (C89_dense toy "" "1" ex_gen ex_fan 1); [by left|exact HI|lia|exact Ho|exact Hfull|].
  intros k f Hin. change (Z.to_nat 1) with 1%nat. cbn [seq fmap list_fmap]. cbv zeta. split.
  - intros b Hb. apply elem_of_list_singleton in Hb as ->. cbn [ex_fan fn_run fn_pop compose fst]. unfold measured_fanouts in Hin.
    repeat (apply elem_of_cons in Hin as [[= -> ->]|Hin]; [vm_compute; reflexivity|]). by apply elem_of_nil in Hin.
  - intros g pp ls HG. split; [|intros _; apply Forall_forall; intros run _; apply toy_lucky].
    apply Forall_singleton. cbn [ex_fan fn_run fst snd]. unfold ex_fan_coins. cbn [ex_fan fn_α] in HG. rewrite HG. apply ex_coins_fit.
Qed.
(** ITERATIONS = 5, -3 and 0x10, and other values *)
Example C89_exit_nonvacuous : parallelism_ok "1" /\ ~ parallelism_ok "yes" /\ iterations "5" 5 /\ iterations "-3" (-3) /\ (forall N, ~ iterations "0x10" N) /\ ~ exists t, tree_type "dense" t.
Proof.
  split; [by right; right|]. split; [intros [H|[H|H]]; done|]. split; [exact (C89_decimal 5 ltac:(lia))|]. split; [exact (C89_decimal (-3) ltac:(lia))|].
  split; [intros N [[H _]|[_ H]]; [done|]; vm_compute in H; discriminate H|]. intros [t [[_ [H|H]]|[_ H]]]; done.
Qed.
(** PARALLELISM=0 switches the goroutines of proof and verification off, otherwise they are on. *)
Theorem C89_parallelism P b : setParallelism P = Some b <-> (P = "0"%string /\ b = false) \/ ((P = ""%string \/ P = "1"%string) /\ b = true).
Proof.
  unfold setParallelism. destruct (String.eqb_spec P "0") as [->|H0]; [split; [intros [= <-]; auto|intros [[_ ->]|[[?|?] _]]; done]|].
  destruct (String.eqb_spec P "1") as [->|H1]; cbn [orb]; [split; [intros [= <-]; auto|intros [[? _]|[_ ->]]; done]|].
  destruct (String.eqb_spec P "") as [->|H2]; [split; [intros [= <-]; auto|intros [[? _]|[_ ->]]; done]|]. split; [done|tauto].
Qed.
Print Assumptions C89_parallelism.
Print Assumptions C89_report.
Print Assumptions C89_exit.
Print Assumptions C89_iterations.
Print Assumptions C89_completes.
Print Assumptions C89_dense.
Print Assumptions C89_decimal.
