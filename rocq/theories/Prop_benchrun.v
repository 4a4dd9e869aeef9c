(** Property C88: the benchmark of one fanout, end to end. *)
From Verif Require Export Prop_update Model_bench.
From Verif Require Import Extract Verkle_run Pol_chain Pol_params Prop_size Prop_bench Prop_overlap Prop_set Prop_paths Paths_facts Pol_run Prop_params Toy.
Local Open Scope Z_scope.

(** ** Specification *)
(** The Sets of the benchmark: of each batch the j-th id is set to j, then the measured ids are set to 666. *)
Definition draws (genID : bytes -> string) (batches : list (list bytes)) (buffs : list bytes) : list (string * Z) :=
  mjoin ((fun l => imap (fun j b => (genID b, Z.of_nat j)) l) <$> batches) ++ ((fun b => (genID b, 666)) <$> buffs).
(** No challenge of the proof of one id is zero: those of the range proofs, before they are checked by the prover, and those of
    the finished proof *)
Definition lucky {C : Curve} (pp : PolPP C) (id2path : string -> res path) (ls : LSet) (id : string) (co : ProofCoins) : Prop :=
  (forall z ws i w rp ipaPP, VGet (C:=C) id2path (ls_tree ls) id = Ret (Some (z, ws)) -> ws !! i = Some w ->
     ProveRange_unchecked (po_RPPP pp) (v_V w) (Vertex_Values w (po_Fanout pp + 1)) (v_bf w) (pc_range co i) = Ret (rp, ipaPP) ->
     nonzero (range_challenges (po_RPPP pp) rp (v_V w))) /\
  (forall z lp, ProveLiability pp id2path co ls id = Ret (Some (z, lp)) -> nonzero (proof_challenges pp lp)).

(** ** Facts *)
Lemma draws_calls genID batches buffs : populateLiabilitySet genID batches ++ measured genID buffs = (fun e => CSet (fst e) (snd e)) <$> draws genID batches buffs.
Proof.
  unfold draws. rewrite fmap_app. f_equal; [|unfold measured; rewrite <- list_fmap_compose; done].
  unfold populateLiabilitySet. induction batches as [|l ls IH]; [done|]. rewrite !fmap_cons. cbn [mjoin list_join]. rewrite fmap_app. f_equal; [|exact IH].
  unfold batch. rewrite fmap_imap. apply imap_ext. done.
Qed.
Lemma sets_of (l : list (string * Z)) : sets ((fun e => CSet (fst e) (snd e)) <$> l) = l.
Proof. induction l as [|[id z] l IH]; [done|]. rewrite fmap_cons. unfold sets in *. cbn [omap list_omap fst snd]. rewrite IH. done. Qed.
Lemma draws_nonneg genID batches buffs : Forall (fun e => 0 <= e.2) (draws genID batches buffs).
Proof.
  unfold draws. apply Forall_app. split; [|apply Forall_fmap, Forall_forall; intros b _; cbn; lia].
  apply Forall_forall. intros e He. apply elem_of_list_join in He as (l & Hl & Hin). apply elem_of_list_fmap in Hin as (bs & -> & _).
  apply elem_of_list_lookup in Hl as (i & Hi). rewrite list_lookup_imap in Hi. destruct (bs !! i); [|done]. cbn in Hi. injection Hi as <-. cbn. lia.
Qed.
Lemma csets_run {C : Curve} F α (pp : PolPP C) rnd order id2path pathof n h : tree_params F α pp -> (forall k b m, order k b m ≡ₚ map_to_list m) ->
  fixed_paths F id2path pathof n h -> Forall (fun e => 0 <= e.2) h ->
  exists ls, do_calls pp rnd order id2path (NewLiabilitySet ∅) ((fun e => CSet (fst e) (snd e)) <$> h) = Ret ls.
Proof.
  intros Hp Ho [HF Hf] Hz. induction h as [|[id z] h IH] using rev_ind; [eexists; reflexivity|]. apply Forall_app in Hz as [Hz Hz1]. apply Forall_cons in Hz1 as [Hz1 _]. cbn in Hz1.
  destruct IH as [ls Hls]; [intros id' z' Hin; apply (Hf id' z'); apply elem_of_app; by left|exact Hz|]. rewrite fmap_app, do_calls_app, Hls. cbn [rbind fmap list_fmap do_calls do_call fst snd].
  destruct (C44_set_never_fails C F α pp rnd order id2path pathof n ((fun e => CSet (fst e) (snd e)) <$> h) ls id z Hp) as [ls' Hls']; [rewrite sets_of; split; done|split; [exact Ho|exists ∅; exact Hls]|exact Hz1|].
  rewrite Hls'. cbn [rbind]. eauto.
Qed.
Lemma total_le F n pathof h : (forall id z, (id, z) ∈ h -> length (pathof id) = n /\ Forall (fun i => i < F)%nat (pathof id)) -> Forall (fun e => 0 <= e.2) h ->
  total F n (latest pathof h) <= foldr Z.add 0 (snd <$> h).
Proof.
  intros Hf Hz. induction h as [|[id z] h IH] using rev_ind; [rewrite total_empty by done; done|]. apply Forall_app in Hz as [Hz Hz1].
  destruct (Hf id z) as [Hl HF]; [apply elem_of_app; right; left|].
  rewrite (total_ext F n _ (fun q => if decide (pathof id = q) then Some z else latest pathof h q)) by (intros q _; apply latest_snoc).
  rewrite <- Hl, total_point by exact HF. rewrite Hl.
  assert (H0 : 0 <= default 0 (latest pathof h (pathof id))).
  { destruct (latest pathof h (pathof id)) as [y|] eqn:E; [|done]. apply latest_elem in E as (id' & Hin & _). rewrite Forall_forall in Hz. apply (Hz _ Hin). }
  assert (IH' : total F n (latest pathof h) <= foldr Z.add 0 (snd <$> h)) by (apply IH; [intros id' z' Hin; apply (Hf id' z'); apply elem_of_app; by left|exact Hz]).
  rewrite fmap_app, foldr_app. cbn [fmap list_fmap foldr snd]. clear -IH' H0.
  enough (E : forall l a, foldr Z.add a l = foldr Z.add 0 l + a) by (rewrite E; lia). clear. induction l as [|x l IH]; intros a; cbn [foldr]; [lia|]. rewrite IH. lia.
Qed.
Lemma imap_sum (l : list bytes) (genID : bytes -> string) : forall k, foldr Z.add 0 (snd <$> imap (fun j b => (genID b, Z.of_nat (k + j))) l) <= Z.of_nat (length l) * Z.of_nat (k + length l).
Proof.
  induction l as [|b l IH]; intros k; [cbn; lia|]. rewrite imap_cons, fmap_cons. cbn [foldr snd length].
  rewrite (imap_ext _ (fun j b => (genID b, Z.of_nat (S k + j)))) by (intros i x _; cbn; do 2 f_equal; lia). specialize (IH (S k)). nia.
Qed.
Lemma foldr_add_app l l' : foldr Z.add 0 (l ++ l') = foldr Z.add 0 l + foldr Z.add 0 l'.
Proof. induction l as [|x l IH]; cbn [foldr app]; lia. Qed.
Lemma draws_sum genID batches buffs : Forall (fun l => length l <= 1000)%nat batches ->
  foldr Z.add 0 (snd <$> draws genID batches buffs) <= 1000000 * Z.of_nat (length batches) + 666 * Z.of_nat (length buffs).
Proof.
  intros Hb. unfold draws. rewrite fmap_app, foldr_add_app. apply Z.add_le_mono.
  - induction Hb as [|l bs Hl _ IH]; [done|]. rewrite fmap_cons. cbn [mjoin list_join length]. rewrite fmap_app, foldr_add_app. pose proof (imap_sum l genID 0) as H. cbn [Nat.add] in H. 
    apply inj_le in Hl. change (Z.of_nat 1000) with 1000 in Hl. pose proof (Nat2Z.is_nonneg (length l)) as Hm. revert Hl H Hm. generalize (Z.of_nat (length l)). intros m Hl H Hm. rewrite Nat2Z.inj_succ.
    etransitivity; [apply Z.add_le_mono; [exact H|exact IH]|]. clear -Hl Hm. nia.
  - induction buffs as [|b l IH]; [done|]. rewrite !fmap_cons. cbn [foldr snd length]. lia.
Qed.
Lemma latest_draws pathof genID batches buffs b : b ∈ buffs -> latest pathof (draws genID batches buffs) (pathof (genID b)) = Some 666.
Proof.
  unfold draws. generalize (mjoin ((fun l => imap (fun j b => (genID b, Z.of_nat j)) l) <$> batches)). intros l.
  induction buffs as [|c buffs IH] using rev_ind; intros Hb; [by apply elem_of_nil in Hb|]. rewrite fmap_app, app_assoc. cbn [fmap list_fmap]. rewrite latest_snoc.
  destruct (decide _) as [E|E]; [done|]. apply elem_of_app in Hb as [Hb|Hb]; [by apply IH|]. apply elem_of_list_singleton in Hb as ->. done.
Qed.
Section State.
  Context {C : Curve}.
  Variable (f : Z) (t : TreeType) (α : Zr) (g : nat -> string -> res path) (pp : PolPP C) (fuel : nat) (rnd : nat -> Zr) (order : nat -> bool -> gmap nat Zr -> list (nat * Zr)).
  Variable (genID : bytes -> string) (pathof : string -> path) (n : nat) (batches : list (list bytes)) (buffs : list bytes).
  Let F := Z.to_nat f.
  Let h := draws genID batches buffs.
  Hypothesis (Hs : supported f t) (Hgen : GeneratePublicParams (C:=C) f t α = Ret (g, pp)) (Hfl : full_path_length f t n).
  Hypothesis (Ho : forall k b m, order k b m ≡ₚ map_to_list m) (Hf : fixed_paths F (g fuel) pathof n h).
  Hypothesis (Hb : Forall (fun l => length l <= 1000)%nat batches) (Hsum : 1000000 * Z.of_nat (length batches) + 666 * Z.of_nat (length buffs) < 2 ^ 63) (Hne : buffs <> []).
  Definition bench_calls : list call := populateLiabilitySet genID batches ++ measured genID buffs ++ [CRoot].

  Lemma bench_state : exists k ls0 ls V W tp, (2 <= n)%nat /\ params_ok F α n k pp /\
    do_calls pp rnd order (g fuel) (NewLiabilitySet ∅) (populateLiabilitySet genID batches ++ measured genID buffs) = Ret ls0 /\
    Root (C:=C) ls0 = Ret (ls, Some (V, Some W)) /\ do_calls pp rnd order (g fuel) (NewLiabilitySet ∅) bench_calls = Ret ls /\ current_root ls V (Some W) /\
    ProveTot pp ls = Ret tp /\ TotalProof_Verify tp pp V = Ret nil_error /\
    (forall b, b ∈ buffs -> recorded_state F α pp rnd order (g fuel) pathof bench_calls ls (genID b) (pathof (genID b)) 666 /\ length (pathof (genID b)) = n).
  Proof.
    destruct (generate_spec (C:=C) f t α Hs) as (n' & g' & pp' & k & HG' & Hfl' & Hn & Hp & _). rewrite Hgen in HG'. injection HG' as <- <-.
    assert (n' = n) as -> by (destruct t; cbn in Hfl, Hfl'; congruence). fold F in Hp. pose proof (params_ok_tree _ _ _ _ _ Hp) as Ht.
    pose proof (draws_nonneg genID batches buffs) as Hz. fold h in Hz.
    destruct (csets_run F α pp rnd order (g fuel) pathof n h Ht Ho Hf Hz) as [ls0 H0].
    pose proof (draws_calls genID batches buffs) as Ec. fold h in Ec. set (cs := populateLiabilitySet genID batches ++ measured genID buffs) in *. rewrite <- Ec in H0.
    assert (Es : sets cs = h) by (rewrite Ec; apply sets_of). assert (Hr0 : set_run pp rnd order (g fuel) cs ls0) by (split; [exact Ho|exists ∅; exact H0]).
    assert (Hnil : h <> []) by (unfold h, draws; intros E; apply app_eq_nil in E as [_ E]; by apply fmap_nil_inv in E).
    destruct (C52_first_call C F α pp rnd order (g fuel) pathof n cs ls0 Ht) as (ls & V & W & HR & Hroot); [by rewrite Es|lia|exact Hr0|by rewrite Es| |].
    { rewrite Ec. intros Hin. apply elem_of_list_fmap in Hin as (e & E & _). discriminate E. }
    assert (Ecs : bench_calls = cs ++ [CRoot]) by (unfold bench_calls, cs; by rewrite app_assoc).
    assert (Hd : do_calls pp rnd order (g fuel) (NewLiabilitySet ∅) bench_calls = Ret ls). { rewrite Ecs, do_calls_app, H0. cbn [rbind do_calls do_call]. rewrite HR. done. }
    assert (Esb : sets bench_calls = h) by (rewrite Ecs, sets_app, Es; apply app_nil_r).
    assert (Hrb : set_run pp rnd order (g fuel) bench_calls ls) by (split; [exact Ho|exists ∅; exact Hd]).
    assert (Htot : total_of F n pathof bench_calls < 2 ^ 63).
    { unfold total_of. rewrite Esb. eapply Z.le_lt_trans; [apply total_le; [|exact Hz]|]; [intros id z Hin; destruct Hf as [_ Hf']; destruct (Hf' id z Hin) as (_ & ? & ?); done|].
      eapply Z.le_lt_trans; [apply draws_sum; exact Hb|exact Hsum]. }
    pose proof (Root_tree _ _ _ HR) as Etree. assert (Hroot2 : current_root ls V W) by (destruct Hroot as (w & Hw & H); exists w; rewrite Etree; done).
    assert (HW : exists W', W = Some W').
    { destruct (root_vertex F α pp rnd order (g fuel) pathof n bench_calls ls Ht ltac:(by rewrite Esb) ltac:(lia) Hrb ltac:(by rewrite Esb)) as (_ & x & _ & _ & Hx & _ & _ & Hc). destruct (Hc ltac:(lia)) as [_ [W' HW']]. exists W'.
      destruct Hroot2 as (w & Hw & _ & <-). rewrite (stored_fun _ _ _ _ Hw Hx). done. }
    destruct HW as [W' ->].
    destruct (C50_total_proof_complete C F α pp rnd order (g fuel) pathof n bench_calls ls Ht ltac:(by rewrite Esb) ltac:(lia) Hrb ltac:(by rewrite Esb) Htot) as (tp & V' & W'' & HPT & _ & HR' & HV').
    assert (V' = V) as -> by (destruct HR' as (w1 & Hw1 & <- & _), Hroot2 as (w2 & Hw2 & <- & _); by rewrite (stored_fun _ _ _ _ Hw1 Hw2)).
    exists k, ls0, ls, V, W', tp. split; [lia|]. split; [exact Hp|]. split; [exact H0|]. split; [exact HR|]. split; [exact Hd|]. split; [exact Hroot2|]. split; [exact HPT|]. split; [exact HV'|].
    intros b Hbin. assert (Hin : (genID b, 666) ∈ h) by (unfold h, draws; apply elem_of_app; right; apply elem_of_list_fmap; by exists b).
    destruct Hf as [HF Hf']. destruct (Hf' _ _ Hin) as (P1 & P2 & P3). split; [|exact P2]. unfold recorded_state. rewrite P2, Esb.
    split; [lia|]. split; [by exists k|]. split; [done|]. split; [exact Hrb|]. split; [exact Htot|]. split; [exact P1|]. by apply latest_draws.
  Qed.
End State.

(** ** C88 *)
(** The benchmark completes, if the vertices above the measured ids are set once, no challenge is zero, and there is at least one
    iteration.  All proofs have the same size. *)
Theorem C88_completes (C : Curve) f t α g (pp : PolPP C) fuel rnd order genID pathof n batches runs k :
  supported f t -> f = 2 ^ Z.of_nat k - 1 -> GeneratePublicParams (C:=C) f t α = Ret (g, pp) -> full_path_length f t n -> (forall k b m, order k b m ≡ₚ map_to_list m) ->
  let buffs := fst ∘ fst <$> runs in
  fixed_paths (Z.to_nat f) (g fuel) pathof n (draws genID batches buffs) ->
  Forall (fun l => length l <= 1000)%nat batches -> 1000000 * Z.of_nat (length batches) + 666 * Z.of_nat (length runs) < 2 ^ 63 -> runs <> [] ->
  Forall (fun run => coins_fit pp (snd (fst run))) runs ->
  (forall b, b ∈ buffs -> bottom_set_once pathof (bench_calls genID batches buffs) (pathof (genID b))) ->
  exists ls, do_calls pp rnd order (g fuel) (NewLiabilitySet ∅) (bench_calls genID batches buffs) = Ret ls /\
    (Forall (fun run => lucky pp (g fuel) ls (genID (fst (fst run))) (snd (fst run))) runs ->
     exists tot, benchmarkFanout (C:=C) f t α fuel rnd order genID batches runs = Ret (replicate (length runs) (Z.of_nat (liability_size C k n) / 1024), tot)).
Proof.
  intros Hs Ek Hgen Hfl Ho buffs Hf Hb Hsum Hne Hco Honce.
  destruct (bench_state f t α g pp fuel rnd order genID pathof n batches buffs Hs Hgen Hfl Ho Hf Hb) as (k' & ls0 & ls & V & W & tp & Hn & Hp & Hd0 & HR & Hd & Hroot & HPT & HVT & Hst).
  { unfold buffs. rewrite fmap_length. exact Hsum. } { unfold buffs. intros E. by apply fmap_nil_inv in E. }
  exists ls. split; [exact Hd|]. intros Hlucky. unfold benchmarkFanout. rewrite Hgen. cbn [rbind]. fold buffs. rewrite Hd0. cbn [rbind]. rewrite HR. cbn [rbind].
  assert (Hk : (Z.to_nat f + 1 = 2 ^ k)%nat). { subst f. rewrite Z2Nat.inj_sub by lia. rewrite <- Nat2Z.inj_pow with (n := 2%nat), Nat2Z.id. assert (2 ^ k <> 0)%nat by (apply Nat.pow_nonzero; lia). change (Z.to_nat 1) with 1%nat. lia. }
  rewrite (mapM_ret _ (fun _ => Z.of_nat (liability_size C k n) / 1024)).
  2: { intros [[b co] d] Hin. cbn [fst snd]. rewrite Forall_forall in Hco, Hlucky. specialize (Hco _ Hin). specialize (Hlucky _ Hin). cbn [fst snd] in Hco, Hlucky. destruct Hlucky as [Hl1 Hl2].
       assert (Hbin : b ∈ buffs) by (unfold buffs; apply elem_of_list_fmap; exists (b, co, d); done).
       destruct (Hst b Hbin) as [Hrec Hlen]. assert (Hh : honest_state (Z.to_nat f) α pp rnd order (g fuel) pathof (bench_calls genID batches buffs) ls (genID b) (pathof (genID b)) 666).
       { destruct Hrec as (A1 & A2 & A3 & A4 & A5 & A6 & A7). unfold honest_state. split_and!; try done. by apply Honce. }
       destruct (C53_returned C (Z.to_nat f) α pp rnd order (g fuel) pathof (bench_calls genID batches buffs) ls (genID b) (pathof (genID b)) 666 co Hh Hco) as (ws & rps & HG & Lw & Lr & Hun & HPL).
       destruct HPL as (lp & HPL & _).
       { apply Forall_concat. apply Forall_lookup. intros i cs Hcs. apply lookup_zip_with_Some in Hcs as (rp & V' & -> & Hrp & HV'). rewrite list_lookup_fmap in HV'. destruct (ws !! i) as [w|] eqn:Hw; [|done]. injection HV' as <-.
         destruct (Hun i w rp Hw Hrp) as [ipaPP Hun']. apply (Hl1 666 ws i w rp ipaPP HG Hw). rewrite (proj1 (proj2 (proj2 Hp))). exact Hun'. }
       unfold measure_proof. rewrite HPL. cbn [rbind].
       destruct (C53_accepted C (Z.to_nat f) α pp rnd order (g fuel) pathof (bench_calls genID batches buffs) ls (genID b) (pathof (genID b)) 666 co 666 lp Hh Hco HPL) as (_ & _ & V1 & W1 & HR1 & Hv).
       assert (E : V1 = V /\ W1 = W). { destruct HR1 as (w1 & Hw1 & <- & E1), Hroot as (w2 & Hw2 & <- & E2). rewrite (stored_fun _ _ _ _ Hw1 Hw2) in *. split; [done|congruence]. }
       destruct E as [-> ->]. rewrite Hv by (by apply (Hl2 666)). cbn [rbind].
       destruct (C81_liability_size C (Z.to_nat f) α pp rnd order (g fuel) pathof (bench_calls genID batches buffs) ls (genID b) (pathof (genID b)) 666 co 666 lp k Hrec Hk HPL) as [-> _]. rewrite Hlen. done. }
  cbn [rbind]. unfold benchmarkVerifyTot. rewrite (mapM_ret _ (fun t => t)) by (intros d _; rewrite HPT; cbn [rbind]; rewrite HVT; done). cbn [rbind]. rewrite list_fmap_id.
  assert (HA : forall l, l <> [] -> exists a, Avg l = Ret a) by (intros [|x l] Hl; [done|]; unfold Avg; eexists; reflexivity).
  destruct (HA (fst <$> (snd <$> runs))) as [a1 Ha1]; [intros E; apply fmap_nil_inv, fmap_nil_inv in E; done|]. rewrite Ha1. cbn [rbind].
  destruct (HA (snd <$> (snd <$> runs))) as [a2 Ha2]; [intros E; apply fmap_nil_inv, fmap_nil_inv in E; done|]. rewrite Ha2. cbn [rbind].
  exists (a1, a2). do 2 f_equal. clear. induction runs as [|x l IH]; [done|]. rewrite fmap_cons, IH. done.
Qed.
(** Otherwise it depends on the drift of C87: if it is not zero for one of the measured ids, the benchmark panics. *)
Theorem C88_fails (C : Curve) f t α g (pp : PolPP C) fuel rnd order genID pathof n batches runs b i z1 l :
  supported f t -> GeneratePublicParams (C:=C) f t α = Ret (g, pp) -> full_path_length f t n -> (forall k b m, order k b m ≡ₚ map_to_list m) -> (α <> 0)%zr ->
  let buffs := fst ∘ fst <$> runs in
  fixed_paths (Z.to_nat f) (g fuel) pathof n (draws genID batches buffs) ->
  Forall (fun l => length l <= 1000)%nat batches -> 1000000 * Z.of_nat (length batches) + 666 * Z.of_nat (length runs) < 2 ^ 63 ->
  Forall (fun run => coins_fit pp (snd (fst run))) runs ->
  b ∈ buffs -> puts_at pathof (take (n - 1) (pathof (genID b))) (draws genID batches buffs) = (i, z1) :: l -> drift (Z.to_nat f) α {[i := z1]} l <> (0)%zr ->
  benchmarkFanout (C:=C) f t α fuel rnd order genID batches runs = Panic.
Proof.
  intros Hs Hgen Hfl Ho Hα buffs Hf Hb Hsum Hco Hbin Hbp Hd.
  destruct (bench_state f t α g pp fuel rnd order genID pathof n batches buffs Hs Hgen Hfl Ho Hf Hb) as (k' & ls0 & ls & V & W & tp & Hn & Hp & Hd0 & HR & Hdo & Hroot & HPT & HVT & Hst).
  { unfold buffs. rewrite fmap_length. exact Hsum. } { intros E. rewrite E in Hbin. by apply elem_of_nil in Hbin. }
  unfold benchmarkFanout. rewrite Hgen. cbn [rbind]. fold buffs. rewrite Hd0. cbn [rbind]. rewrite HR. cbn [rbind].
  pose proof Hbin as Hbin'. unfold buffs in Hbin'. apply elem_of_list_fmap in Hbin' as ([[b' co] d] & Eb & Hin). cbn in Eb. subst b'.
  rewrite Forall_forall in Hco. rewrite (mapM_panics _ runs (b, co, d) Hin); [done| |].
  - cbn [fst snd]. specialize (Hco _ Hin). cbn [fst snd] in Hco. destruct (Hst b Hbin) as [Hrec Hlen]. unfold measure_proof.
    destruct (C87_outcome C (Z.to_nat f) α pp rnd order (g fuel) pathof (bench_calls genID batches buffs) ls (genID b) (pathof (genID b)) 666 co Hrec Hco) as [E|(lp & HPL & _)]; [rewrite E; done|].
    rewrite HPL. cbn [rbind].
    destruct (C87_verdict C (Z.to_nat f) α pp rnd order (g fuel) pathof (bench_calls genID batches buffs) ls (genID b) (pathof (genID b)) 666 co 666 lp i z1 l Hrec Hα Hco) as (_ & _ & _ & Hrej); [|exact HPL|].
    { unfold bottom_puts. rewrite Hlen. unfold bench_calls. rewrite app_assoc, sets_app, draws_calls, sets_of. cbn. rewrite app_nil_r. exact Hbp. }
    destruct (Hrej Hd V W) as [s Hv]. rewrite Hv. done.
  - intros [[b' co'] d'] Hin'. cbn [fst snd]. specialize (Hco _ Hin'). cbn [fst snd] in Hco. destruct (Hst b') as [Hrec Hlen]; [unfold buffs; apply elem_of_list_fmap; exists (b', co', d'); done|]. unfold measure_proof.
    destruct (C87_outcome C (Z.to_nat f) α pp rnd order (g fuel) pathof (bench_calls genID batches buffs) ls (genID b') (pathof (genID b')) 666 co' Hrec Hco) as [E|(lp & HPL & Hret)]; [rewrite E; done|].
    rewrite HPL. cbn [rbind]. destruct (Hret V W) as [e He]. rewrite He. cbn [rbind]. destruct e; done.
Qed.
(** Whenever it completes, what it reports is known: the sizes, and the averages of the measured durations. *)
Theorem C88_report (C : Curve) f t α g (pp : PolPP C) fuel rnd order genID pathof n batches runs k sizes tot :
  supported f t -> f = 2 ^ Z.of_nat k - 1 -> GeneratePublicParams (C:=C) f t α = Ret (g, pp) -> full_path_length f t n -> (forall k b m, order k b m ≡ₚ map_to_list m) ->
  let buffs := fst ∘ fst <$> runs in
  fixed_paths (Z.to_nat f) (g fuel) pathof n (draws genID batches buffs) ->
  Forall (fun l => length l <= 1000)%nat batches -> 1000000 * Z.of_nat (length batches) + 666 * Z.of_nat (length runs) < 2 ^ 63 ->
  benchmarkFanout (C:=C) f t α fuel rnd order genID batches runs = Ret (sizes, tot) ->
  runs <> [] /\ sizes = replicate (length runs) (Z.of_nat (liability_size C k n) / 1024) /\
  Avg (fst <$> (snd <$> runs)) = Ret (fst tot) /\ Avg (snd <$> (snd <$> runs)) = Ret (snd tot).
Proof.
  intros Hs Ek Hgen Hfl Ho buffs Hf Hb Hsum H. unfold benchmarkFanout in H. rewrite Hgen in H. cbn [rbind] in H. fold buffs in H.
  destruct (decide (runs = [])) as [Er|Hne].
  { exfalso. subst runs. apply rbind_inv in H as (ls & _ & H). apply rbind_inv in H as ([ls' root] & _ & H). destruct root as [[V W]|]; [|discriminate H]. cbn [mapM rbind] in H. apply rbind_inv in H as (t0 & H0 & _). unfold benchmarkVerifyTot in H0. cbn in H0. discriminate H0. }
  destruct (bench_state f t α g pp fuel rnd order genID pathof n batches buffs Hs Hgen Hfl Ho Hf Hb) as (k' & ls0 & ls & V & W & tp & Hn & Hp & Hd0 & HR & Hd & Hroot & HPT & HVT & Hst).
  { unfold buffs. rewrite fmap_length. exact Hsum. } { unfold buffs. intros E. by apply fmap_nil_inv in E. }
  rewrite Hd0 in H. cbn [rbind] in H. rewrite HR in H. cbn [rbind] in H. apply rbind_inv in H as (sz & Hm & H). apply rbind_inv in H as (tt & Ht & H). injection H as -> ->.
  assert (Hk : (Z.to_nat f + 1 = 2 ^ k)%nat). { subst f. rewrite Z2Nat.inj_sub by lia. rewrite <- Nat2Z.inj_pow with (n := 2%nat), Nat2Z.id. assert (2 ^ k <> 0)%nat by (apply Nat.pow_nonzero; lia). change (Z.to_nat 1) with 1%nat. lia. }
  split; [exact Hne|]. split.
  - apply list_eq. intros i. pose proof (mapM_length _ _ _ Hm) as Lm. destruct (runs !! i) as [run|] eqn:Er.
    + destruct (mapM_lookup _ _ _ i run Hm Er) as (y & Hy & Hrun). rewrite Hy. symmetry. rewrite lookup_replicate_2 by (by apply lookup_lt_Some in Er). f_equal.
      destruct run as [[b co] d]. cbn [fst snd] in Hrun. unfold measure_proof in Hrun. apply rbind_inv in Hrun as (o & HPL & Hrun). destruct o as [[z' lp]|]; [|discriminate Hrun]. apply rbind_inv in Hrun as (e & _ & Hrun). destruct e; [|discriminate Hrun]. injection Hrun as <-.
      assert (Hbin : b ∈ buffs) by (unfold buffs; apply elem_of_list_fmap; exists (b, co, d); split; [done|]; by apply elem_of_list_lookup_2 in Er). destruct (Hst b Hbin) as [Hrec Hlen].
      destruct (C81_liability_size C (Z.to_nat f) α pp rnd order (g fuel) pathof (bench_calls genID batches buffs) ls (genID b) (pathof (genID b)) 666 co z' lp k Hrec Hk HPL) as [-> _]. rewrite Hlen. done.
    + rewrite !(proj2 (lookup_ge_None _ _)); [done|rewrite replicate_length; by apply lookup_ge_None|rewrite Lm; by apply lookup_ge_None].
  - unfold benchmarkVerifyTot in Ht. rewrite (mapM_ret _ (fun t => t)) in Ht by (intros d _; rewrite HPT; cbn [rbind]; rewrite HVT; done). cbn [rbind] in Ht. rewrite list_fmap_id in Ht.
    apply rbind_inv in Ht as (a1 & H1 & Ht). apply rbind_inv in Ht as (a2 & H2 & Ht). injection Ht as <-. done.
Qed.
(** Exactly: when no challenge is zero, the benchmark completes if and only if the drifts of all measured ids are zero. *)
Theorem C88_completes_iff (C : Curve) f t α g (pp : PolPP C) fuel rnd order genID pathof n batches runs :
  supported f t -> GeneratePublicParams (C:=C) f t α = Ret (g, pp) -> full_path_length f t n -> (forall k b m, order k b m ≡ₚ map_to_list m) -> (α <> 0)%zr ->
  let buffs := fst ∘ fst <$> runs in
  fixed_paths (Z.to_nat f) (g fuel) pathof n (draws genID batches buffs) ->
  Forall (fun l => length l <= 1000)%nat batches -> 1000000 * Z.of_nat (length batches) + 666 * Z.of_nat (length runs) < 2 ^ 63 -> runs <> [] ->
  Forall (fun run => coins_fit pp (snd (fst run))) runs ->
  exists ls, do_calls pp rnd order (g fuel) (NewLiabilitySet ∅) (bench_calls genID batches buffs) = Ret ls /\
    (Forall (fun run => lucky pp (g fuel) ls (genID (fst (fst run))) (snd (fst run))) runs ->
     (exists result, benchmarkFanout (C:=C) f t α fuel rnd order genID batches runs = Ret result) <->
     forall b, b ∈ buffs -> exists i z1 l, puts_at pathof (take (n - 1) (pathof (genID b))) (draws genID batches buffs) = (i, z1) :: l /\ drift (Z.to_nat f) α {[i := z1]} l = 0%zr).
Proof.
  intros Hs Hgen Hfl Ho Hα buffs Hf Hb Hsum Hne Hco.
  destruct (bench_state f t α g pp fuel rnd order genID pathof n batches buffs Hs Hgen Hfl Ho Hf Hb) as (k' & ls0 & ls & V & W & tp & Hn & Hp & Hd0 & HR & Hd & Hroot & HPT & HVT & Hst).
  { unfold buffs. rewrite fmap_length. exact Hsum. } { unfold buffs. intros E. by apply fmap_nil_inv in E. }
  exists ls. split; [exact Hd|]. intros Hlucky. split.
  { intros [result Hres] b Hbin. destruct (puts_at pathof (take (n - 1) (pathof (genID b))) (draws genID batches buffs)) as [|[i z1] l] eqn:Ep.
    - exfalso. destruct (Hst b Hbin) as [_ Hlen]. assert (Hin : (genID b, 666) ∈ draws genID batches buffs) by (unfold draws; apply elem_of_app; right; apply elem_of_list_fmap; by exists b).
      assert (Hsl : exists i, slot (take (n - 1) (pathof (genID b))) (pathof (genID b)) = Some i).
      { apply (slot_prefix (take (n - 1) (pathof (genID b)))); [rewrite take_length; lia|]. exists (drop (n - 1) (pathof (genID b))). by rewrite take_drop. }
      destruct Hsl as [i Hi]. assert (Hin' : (i, 666) ∈ puts_at pathof (take (n - 1) (pathof (genID b))) (draws genID batches buffs)).
      { unfold puts_at. apply elem_of_list_omap. exists (genID b, 666). split; [exact Hin|]. cbn [fst snd]. rewrite Hi. done. }
      rewrite Ep in Hin'. by apply elem_of_nil in Hin'.
    - exists i, z1, l. split; [done|]. destruct (decide (drift (Z.to_nat f) α {[i := z1]} l = 0%zr)) as [E|E]; [exact E|]. exfalso.
      rewrite (C88_fails C f t α g pp fuel rnd order genID pathof n batches runs b i z1 l Hs Hgen Hfl Ho Hα Hf Hb Hsum Hco Hbin Ep E) in Hres. done. }
  intros Hdrift. unfold benchmarkFanout. rewrite Hgen. cbn [rbind]. fold buffs. rewrite Hd0. cbn [rbind]. rewrite HR. cbn [rbind].
  destruct (mapM_total (fun run => measure_proof pp (g fuel) ls V (Some W) (genID (fst (fst run))) (snd (fst run))) runs) as [sizes Hm].
  { intros [[b co] d] Hin. cbn [fst snd]. rewrite Forall_forall in Hco, Hlucky. specialize (Hco _ Hin). specialize (Hlucky _ Hin). cbn [fst snd] in Hco, Hlucky. destruct Hlucky as [Hl1 Hl2].
    assert (Hbin : b ∈ buffs) by (unfold buffs; apply elem_of_list_fmap; exists (b, co, d); done).
    destruct (Hst b Hbin) as [Hrec Hlen]. destruct (Hdrift b Hbin) as (i & z1 & l & Ep & E0).
    destruct (C87_returned C (Z.to_nat f) α pp rnd order (g fuel) pathof (bench_calls genID batches buffs) ls (genID b) (pathof (genID b)) 666 co Hrec Hco) as (ws & rps & HG & Lw & Lr & Hun & HPL).
    destruct HPL as (lp & HPL & _).
    { apply Forall_concat. apply Forall_lookup. intros m cs Hcs. apply lookup_zip_with_Some in Hcs as (rp & V' & -> & Hrp & HV'). rewrite list_lookup_fmap in HV'. destruct (ws !! m) as [w|] eqn:Hw; [|done]. injection HV' as <-.
      destruct (Hun m w rp Hw Hrp) as [ipaPP Hun']. apply (Hl1 666 ws m w rp ipaPP HG Hw). rewrite (proj1 (proj2 (proj2 Hp))). exact Hun'. }
    unfold measure_proof. rewrite HPL. cbn [rbind].
    destruct (C87_verdict C (Z.to_nat f) α pp rnd order (g fuel) pathof (bench_calls genID batches buffs) ls (genID b) (pathof (genID b)) 666 co 666 lp i z1 l Hrec Hα Hco) as (_ & _ & Hacc & _); [|exact HPL|].
    { unfold bottom_puts. rewrite Hlen. unfold bench_calls. rewrite app_assoc, sets_app, draws_calls, sets_of. cbn. rewrite app_nil_r. exact Ep. }
    destruct (Hacc E0) as (V1 & W1 & HR1 & Hv).
    assert (E : V1 = V /\ W1 = W). { destruct HR1 as (w1 & Hw1 & <- & E1), Hroot as (w2 & Hw2 & <- & E2). rewrite (stored_fun _ _ _ _ Hw1 Hw2) in *. split; [done|congruence]. }
    destruct E as [-> ->]. rewrite Hv by (by apply (Hl2 666)). cbn [rbind]. eauto. }
  rewrite Hm. cbn [rbind]. unfold benchmarkVerifyTot. rewrite (mapM_ret _ (fun t => t)) by (intros d _; rewrite HPT; cbn [rbind]; rewrite HVT; done). cbn [rbind]. rewrite list_fmap_id.
  assert (HA : forall l, l <> [] -> exists a, Avg l = Ret a) by (intros [|x l] Hl; [done|]; unfold Avg; eexists; reflexivity).
  destruct (HA (fst <$> (snd <$> runs))) as [a1 Ha1]; [intros E; apply fmap_nil_inv, fmap_nil_inv in E; done|]. rewrite Ha1. cbn [rbind].
  destruct (HA (snd <$> (snd <$> runs))) as [a2 Ha2]; [intros E; apply fmap_nil_inv, fmap_nil_inv in E; done|]. rewrite Ha2. cbn [rbind]. eauto.
Qed.
Lemma drift_roots F i z1 l αs α0 : Forall (fun e => fst e < F)%nat ((i, z1) :: l) -> NoDup αs -> (forall α, α ∈ αs -> drift F α {[i := z1]} l = 0%zr) -> (F + 1 < length αs)%nat -> drift F α0 {[i := z1]} l = 0%zr.
Proof.
  intros Hfit Hnd Hall Hlen. apply Forall_cons in Hfit as [Hi Hfit]. cbn in Hi.
  assert (HM : fits F {[i := z1]}) by (intros j Hj; destruct (decide (i = j)) as [<-|Hne]; [done|rewrite lookup_singleton_ne in Hj by done; by destruct Hj]).
  assert (Hz : Forall (fun c => c = 0%zr) (drift_poly F {[i := z1]} l)).
  { apply (poly_roots _ (take (F + 2) αs)).
    - rewrite drift_poly_length, take_length. lia.
    - apply (NoDup_app (take (F + 2) αs) (drop (F + 2) αs)). rewrite take_drop. done.
    - apply Forall_forall. intros α Hin. apply elem_take in Hin. rewrite (drift_poly_eval F α l _ HM Hfit). by apply Hall. }
  rewrite <- (drift_poly_eval F α0 l _ HM Hfit). clear -Hz. induction Hz as [|c cs -> _ IH]; [done|]. cbn [peval]. rewrite IH. ring.
Qed.
(** With the same ids, the benchmark completes for at most fanout + 1 trapdoors, if the drift of a measured id is not identically zero. *)
Theorem C88_few_trapdoors (C : Curve) f t g fuel genID pathof n batches buffs b i z1 l α0 αs :
  supported f t -> full_path_length f t n -> fixed_paths (Z.to_nat f) (g fuel) pathof n (draws genID batches buffs) ->
  Forall (fun l => length l <= 1000)%nat batches -> 1000000 * Z.of_nat (length batches) + 666 * Z.of_nat (length buffs) < 2 ^ 63 ->
  b ∈ buffs -> puts_at pathof (take (n - 1) (pathof (genID b))) (draws genID batches buffs) = (i, z1) :: l -> drift (Z.to_nat f) α0 {[i := z1]} l <> 0%zr ->
  NoDup αs -> 0%zr ∉ αs ->
  (forall α, α ∈ αs -> exists (pp : PolPP C) rnd order runs result, GeneratePublicParams (C:=C) f t α = Ret (g, pp) /\ (forall k b m, order k b m ≡ₚ map_to_list m) /\
     fst ∘ fst <$> runs = buffs /\ Forall (fun run => coins_fit pp (snd (fst run))) runs /\ benchmarkFanout (C:=C) f t α fuel rnd order genID batches runs = Ret result) ->
  (length αs <= Z.to_nat f + 1)%nat.
Proof.
  intros Hs Hfl Hf Hb Hsum Hbin Hbp Hd Hnd H0 Hall. destruct (decide (length αs <= Z.to_nat f + 1)%nat) as [|Hgt]; [done|]. exfalso. apply Hd.
  assert (Hn : length (pathof (genID b)) = n).
  { destruct Hf as [_ Hf]. apply (Hf (genID b) 666). unfold draws. apply elem_of_app. right. apply elem_of_list_fmap. by exists b. }
  assert (Hn2 : (1 <= n)%nat) by (destruct (generate_spec (C:=C) f t α0 Hs) as (n' & _ & _ & _ & _ & Hfl' & ? & _); assert (n' = n) as -> by (destruct t; cbn in Hfl, Hfl'; congruence); lia).
  apply (drift_roots _ _ _ _ αs); [|done| |lia].
  - rewrite <- Hbp. apply (puts_at_fits (Z.to_nat f) (g fuel)). rewrite take_length. replace (S (Nat.min (n - 1) (length (pathof (genID b))))) with n by lia. exact Hf.
  - intros α Hin. destruct (Hall α Hin) as (pp & rnd & order & runs & result & Hgen & Ho & <- & Hco & Hres).
    destruct (decide (drift (Z.to_nat f) α {[i := z1]} l = 0%zr)) as [E|E]; [exact E|]. exfalso.
    rewrite (C88_fails C f t α g pp fuel rnd order genID pathof n batches runs b i z1 l Hs Hgen Hfl Ho) in Hres; try done; [intros ->; done|]. by rewrite fmap_length in Hsum.
Qed.

(** *** The dense benchmark, in terms of the numbers drawn *)
Lemma le_val_mod f p m : 0 < f -> Forall (fun d => Z.of_nat d < f) p -> le_val f p mod f ^ Z.of_nat m = le_val f (take m p).
Proof.
  intros Hf Hp. destruct (decide (length p <= m)%nat) as [Hl|Hl].
  - rewrite take_ge by lia. apply Z.mod_small. split; [apply le_val_nonneg; lia|]. eapply Z.lt_le_trans; [apply le_val_ub; [lia|exact Hp]|]. apply Z.pow_le_mono_r; lia.
  - rewrite <- (take_drop m p) at 1. rewrite le_val_app, take_length. replace (Nat.min m (length p)) with m by lia. rewrite (Z.mul_comm (f ^ Z.of_nat m)), Z_mod_plus_full. apply Z.mod_small.
    split; [apply le_val_nonneg; lia|]. eapply Z.lt_le_trans; [apply le_val_ub; [lia|by apply Forall_take]|]. rewrite take_length. apply Z.pow_le_mono_r; lia.
Qed.
Lemma le_val_inj f p : forall q, 0 < f -> Forall (fun d => Z.of_nat d < f) p -> Forall (fun d => Z.of_nat d < f) q -> length p = length q -> le_val f p = le_val f q -> p = q.
Proof.
  induction p as [|d p IH]; intros [|e q] Hf Hp Hq Hl E; try done. apply Forall_cons in Hp as [Hd Hp], Hq as [He Hq]. cbn [le_val] in E. cbn [length] in Hl.
  assert (H1 : Z.of_nat d = Z.of_nat e). { apply (f_equal (fun x => x mod f)) in E. rewrite !(Z.mul_comm f), !Z_mod_plus_full, !Z.mod_small in E by lia. exact E. }
  f_equal; [lia|]. apply IH; try done; [lia|]. assert (f * le_val f p = f * le_val f q) by lia. nia.
Qed.
Lemma dense_prefix k b b' p q n : (2 <= k <= 15)%nat -> let f := 2 ^ Z.of_nat k - 1 in digit_path f (dense_id b) = Ret p -> digit_path f (dense_id b') = Ret q -> length p = S n -> length q = S n ->
  take n p `prefix_of` q <-> dense_number b' mod f ^ Z.of_nat n = dense_number b mod f ^ Z.of_nat n.
Proof.
  intros Hk f Hp Hq Lp Lq. pose proof (DigitPath_pow2 k ltac:(lia)) as HP. fold f in HP.
  assert (Hf : 2 <= f <= 32767).
  { pose proof (Z.pow_le_mono_r 2 2 (Z.of_nat k) ltac:(lia) ltac:(lia)). pose proof (Z.pow_le_mono_r 2 (Z.of_nat k) 15 ltac:(lia) ltac:(lia)). unfold f. lia. }
  destruct (C73_id_format b) as (_ & H2 & H3), (C73_id_format b') as (_ & H2' & H3').
  destruct (C31_value f _ _ _ p ltac:(lia) HP H2 ltac:(lia) Hp) as [Vp Dp]. destruct (C31_value f _ _ _ q ltac:(lia) HP H2' ltac:(lia) Hq) as [Vq Dq].
  rewrite <- Vp, <- Vq, !le_val_mod by (done || lia). split.
  - intros [s Hs]. rewrite Hs. rewrite take_app_alt by (rewrite take_length; lia). done.
  - intros E. apply le_val_inj in E; [|lia|by apply Forall_take|by apply Forall_take|rewrite !take_length; lia]. rewrite <- E. exists (drop n q). by rewrite take_drop.
Qed.
Lemma fmap_imap_const {A B} (f : nat -> A -> B) (l : list A) (h : B -> A) : (forall j a, h (f j a) = a) -> h <$> imap f l = l.
Proof. intros H. rewrite fmap_imap. rewrite (imap_ext _ (fun _ a => a)) by (intros i x _; cbn; apply H). revert f H. clear. induction l as [|a l IH]; intros f H; [done|]. rewrite imap_cons. f_equal. apply (IH (fun j => f (S j))). intros j x. apply H. Qed.
Lemma dense_fixed k (h : list (bytes * Z)) : (2 <= k <= 15)%nat -> (k = 2%nat -> forall b z, (b, z) ∈ h -> 3 ^ 17 <= dense_number b) -> exists n pathof,
  DigitPathLen (2 ^ Z.of_nat k - 1) = Ret n /\
  fixed_paths (Z.to_nat (2 ^ Z.of_nat k - 1)) (digit_path (2 ^ Z.of_nat k - 1)) pathof n ((fun '(b, z) => (dense_id b, z)) <$> h) /\
  (forall b z, (b, z) ∈ h -> digit_path (2 ^ Z.of_nat k - 1) (dense_id b) = Ret (pathof (dense_id b)) /\ length (pathof (dense_id b)) = n).
Proof.
  intros Hk Hb. destruct (decide (k = 2%nat)) as [->|Hk2].
  - assert (E3 : 2 ^ Z.of_nat 2 - 1 = 3) by reflexivity. rewrite E3. pose proof (DigitPath_pow2 2 ltac:(lia)) as HP. rewrite E3 in HP.
    set (pathof := fun id => match digit_path 3 id with Ret p => p | _ => [] end).
    assert (Hp : forall b z, (b, z) ∈ h -> digit_path 3 (dense_id b) = Ret (pathof (dense_id b)) /\ length (pathof (dense_id b)) = 19%nat /\ Forall (fun i => i < Z.to_nat 3)%nat (pathof (dense_id b))).
    { intros b z Hin. destruct (C73_id_format b) as (F1 & F2 & F3).
      destruct (C31_length 3 _ _ _ ltac:(lia) HP F1 F2 ltac:(lia)) as (p & L & Hp & HL & _ & _ & Hiff). assert (L = 19%nat) as -> by (assert (E : DigitPathLen 3 = Ret 19%nat) by (vm_compute; reflexivity); congruence).
      destruct (C31_value 3 _ _ _ p ltac:(lia) HP F2 ltac:(lia) Hp) as [_ H2]. unfold pathof. rewrite Hp. split; [done|]. split; [apply Hiff; exact (Hb eq_refl b z Hin)|]. eapply Forall_impl; [exact H2|]. intros d Hd. cbn beta in Hd. lia. }
    exists 19%nat, pathof. split; [vm_compute; reflexivity|]. split.
    + split; [lia|]. intros id z Hin. apply elem_of_list_fmap in Hin as ([b z'] & [= -> ->] & Hin). exact (Hp b z' Hin).
    + intros b z Hin. destruct (Hp b z Hin) as (H1 & H2 & _). done.
  - destruct (bench_fixed k h ltac:(lia)) as (n & pathof & H1 & H2 & _ & H3). exists n, pathof. split; [done|]. split; [done|]. intros b z _. apply H3.
Qed.
(** The benchmark with ids of digits completes, if every measured number differs from all others drawn modulo fanout^(path length - 1) (and, for
    fanout 3, if all numbers are at least 3^17). *)
Theorem C88_dense (C : Curve) k α g (pp : PolPP C) fuel rnd order batches runs n :
  (2 <= k <= 15)%nat -> let f := 2 ^ Z.of_nat k - 1 in GeneratePublicParams (C:=C) f Dense α = Ret (g, pp) -> DigitPathLen f = Ret n -> (forall k b m, order k b m ≡ₚ map_to_list m) ->
  let buffs := fst ∘ fst <$> runs in
  Forall (fun l => length l <= 1000)%nat batches -> 1000000 * Z.of_nat (length batches) + 666 * Z.of_nat (length runs) < 2 ^ 63 -> runs <> [] ->
  Forall (fun run => coins_fit pp (snd (fst run))) runs ->
  (k = 2%nat -> forall b, b ∈ mjoin batches ++ buffs -> 3 ^ 17 <= dense_number b) ->
  (forall b, b ∈ buffs -> length (filter (fun b' => dense_number b' mod f ^ Z.of_nat (n - 1) = dense_number b mod f ^ Z.of_nat (n - 1)) (mjoin batches ++ buffs)) = 1%nat) ->
  exists ls, do_calls pp rnd order (g fuel) (NewLiabilitySet ∅) (bench_calls dense_id batches buffs) = Ret ls /\
    (Forall (fun run => lucky pp (g fuel) ls (dense_id (fst (fst run))) (snd (fst run))) runs ->
     exists tot, benchmarkFanout (C:=C) f Dense α fuel rnd order dense_id batches runs = Ret (replicate (length runs) (Z.of_nat (liability_size C k n) / 1024), tot)).
Proof.
  intros Hk f Hgen Hn Ho buffs Hb Hsum Hne Hco Hnum Honce.
  assert (Hs : supported f Dense) by (exists (Z.of_nat k); split; [done|lia]).
  destruct (generate_spec (C:=C) f Dense α Hs) as (n' & g' & pp' & k' & Hgen' & Hfl & Hn2 & _ & (hh & Hh & Hgg) & _).
  rewrite Hgen in Hgen'. injection Hgen' as <- <-. apply DigitPath_inv in Hh. subst hh. unfold full_path_length in Hfl. rewrite Hn in Hfl. assert (n' = n) as -> by congruence. clear Hfl.
  set (h := mjoin ((imap (fun j b => (b, Z.of_nat j)) : list bytes -> _) <$> batches) ++ ((fun b => (b, 666)) <$> buffs)).
  assert (Eh : draws dense_id batches buffs = (fun '(b, z) => (dense_id b, z)) <$> h).
  { unfold draws, h. rewrite fmap_app, <- list_fmap_compose. f_equal. clear. induction batches as [|l ls IH]; [done|]. rewrite !fmap_cons. cbn [mjoin list_join]. rewrite fmap_app. f_equal; [|exact IH]. rewrite fmap_imap. apply imap_ext. done. }
  assert (Eb : fst <$> h = mjoin batches ++ buffs).
  { unfold h. rewrite fmap_app, <- list_fmap_compose. f_equal; [|clear; induction buffs as [|b l IH]; [done|]; rewrite fmap_cons, IH; done].
    clear. induction batches as [|l ls IH]; [done|]. rewrite fmap_cons. cbn [mjoin list_join]. rewrite fmap_app. f_equal; [|exact IH]. by apply fmap_imap_const. }
  destruct (dense_fixed k h Hk) as (n1 & pathof & Hn1 & Hfix & Hp).
  { intros E b z Hin. apply (Hnum E). rewrite <- Eb. apply elem_of_list_fmap. by exists (b, z). }
  fold f in Hn1, Hfix, Hp. rewrite Hn in Hn1. injection Hn1 as <-.
  apply (C88_completes C f Dense α g pp fuel rnd order dense_id pathof n batches runs k); try done; [rewrite Hgg; fold buffs; rewrite Eh; exact Hfix|].
  intros b Hbin. unfold bottom_set_once, bench_calls. rewrite app_assoc, sets_app, draws_calls, sets_of. change (sets [CRoot]) with (@nil (string * Z)). rewrite app_nil_r. fold buffs. rewrite Eh.
  assert (Hbh : (b, 666) ∈ h) by (unfold h; apply elem_of_app; right; apply elem_of_list_fmap; by exists b).
  destruct (Hp b 666 Hbh) as [Pb Lb]. rewrite Lb. etransitivity; [|exact (Honce b Hbin)]. rewrite <- Eb. clear -Pb Lb Hp Hk Hn2. revert Pb Lb. generalize (pathof (dense_id b)). intros p Pb Lb.
  induction h as [|[b' z'] h IH]; [done|]. specialize (IH (fun b z Hin => Hp b z (elem_of_list_further _ _ _ Hin))). rewrite !fmap_cons, !filter_cons. destruct (Hp b' z' ltac:(apply elem_of_list_here)) as [Pb' Lb'].
  pose proof (dense_prefix k b b' p (pathof (dense_id b')) (n - 1) Hk Pb Pb' ltac:(lia) ltac:(lia)) as Hiff. cbv zeta in Hiff. fold f in Hiff. cbn [fst] in *.
  destruct (decide (take (n - 1) p `prefix_of` pathof (dense_id b'))) as [D|D], (decide (dense_number b' mod f ^ Z.of_nat (n - 1) = dense_number b mod f ^ Z.of_nat (n - 1))) as [D'|D']; [cbn [length]; by rewrite IH|tauto|tauto|exact IH].
Qed.

(** ** Examples *)
Lemma toy_lucky (pp : PolPP toy) id2path ls id co : lucky pp id2path ls id co.
Proof. split; [intros; apply toy_range_challenges|intros; apply toy_proof_challenges]. Qed.
Definition ex_buff (m : Z) : bytes := be_bytes 32 m.
Lemma toy_params α : exists g (pp : PolPP toy), GeneratePublicParams (C:=toy) (2 ^ Z.of_nat 3 - 1) Dense α = Ret (g, pp) /\ (forall fuel, g fuel = digit_path 7).
Proof.
  assert (Hsup : supported 7 Dense) by (exists 3%Z; done). destruct (generate_spec (C:=toy) 7 Dense α Hsup) as (n & g & pp & k & HG & Hfl & _ & Hp & (h & Hh & Hg) & _).
  rewrite (DigitPath_pow2 3 ltac:(lia) : DigitPath 7 = Ret (digit_path 7)) in Hh. injection Hh as <-. exists g, pp. split; [exact HG|]. intros fuel. by rewrite Hg.
Qed.
(** Two ids in the population, two measured ones: the benchmark completes. *)
Example C88_nonvacuous : exists g (pp : PolPP toy), GeneratePublicParams (C:=toy) (2 ^ Z.of_nat 3 - 1) Dense (zr 5) = Ret (g, pp) /\ DigitPathLen 7 = Ret 11%nat /\
  let runs := [(ex_buff 123456789, ex_coins pp, (1, 2)); (ex_buff 222222222, ex_coins pp, (3, 4))] in let batches := [[ex_buff 987654321; ex_buff 555555555]] in
  let buffs := fst ∘ fst <$> runs in
  Forall (fun run => coins_fit pp (snd (fst run))) runs /\
  (forall b, b ∈ buffs -> length (filter (fun b' => dense_number b' mod 7 ^ Z.of_nat (11 - 1) = dense_number b mod 7 ^ Z.of_nat (11 - 1)) (mjoin batches ++ buffs)) = 1%nat) /\
  exists tot, benchmarkFanout (C:=toy) 7 Dense (zr 5) 0 ex_rnd ex_order dense_id batches runs = Ret (replicate 2 (Z.of_nat (liability_size toy 3 11) / 1024), tot).
Proof.
  destruct (toy_params (zr 5)) as (g & pp & HG & Hg). exists g, pp. split; [exact HG|]. assert (Hn : DigitPathLen 7 = Ret 11%nat) by (vm_compute; reflexivity). split; [exact Hn|]. intros runs batches buffs.
  assert (Hco : Forall (fun run => coins_fit pp (snd (fst run))) runs) by (repeat (apply Forall_cons; split; [apply ex_coins_fit|]); constructor).
  split; [exact Hco|].
  assert (Honce : forall b, b ∈ buffs -> length (filter (fun b' => dense_number b' mod 7 ^ Z.of_nat (11 - 1) = dense_number b mod 7 ^ Z.of_nat (11 - 1)) (mjoin batches ++ buffs)) = 1%nat).
  { intros b Hb. change buffs with [ex_buff 123456789; ex_buff 222222222] in *. repeat (apply elem_of_cons in Hb as [->|Hb]; [vm_compute; reflexivity|]). exfalso. exact (proj1 (elem_of_nil _) Hb). }
  split; [exact Honce|].
  destruct (C88_dense toy 3 (zr 5) g pp 0 ex_rnd ex_order batches runs 11 ltac:(lia) HG Hn ex_order_perm) as (ls & _ & H); [repeat constructor|done|done|exact Hco|done|exact Honce|].
  apply H. apply Forall_forall. intros run _. apply toy_lucky.
Qed.
(** The same id measured twice, with the trapdoor 5: it panics. *)
Example C88_fails_nonvacuous : exists g (pp : PolPP toy), GeneratePublicParams (C:=toy) (2 ^ Z.of_nat 3 - 1) Dense (zr 5) = Ret (g, pp) /\
  let runs := [(ex_buff 123456789, ex_coins pp, (1, 2)); (ex_buff 123456789, ex_coins pp, (3, 4))] in
  let buffs := fst ∘ fst <$> runs in
  fixed_paths 7 (g 0%nat) (fun _ => ex_dense_p1) 11 (draws dense_id [] buffs) /\ Forall (fun run => coins_fit pp (snd (fst run))) runs /\
  puts_at (fun _ => ex_dense_p1) (take (11 - 1) ex_dense_p1) (draws dense_id [] buffs) = [(0%nat, 666); (0%nat, 666)] /\
  drift 7 (zr 5) {[0%nat := 666]} [(0%nat, 666)] <> 0%zr /\
  benchmarkFanout (C:=toy) 7 Dense (zr 5) 0 ex_rnd ex_order dense_id [] runs = Panic.
Proof.
  assert (Hsup : supported 7 Dense) by (exists 3; done). assert (Hfl : full_path_length 7 Dense 11) by (vm_compute; reflexivity).
  assert (Hα : (zr 5 <> 0)%zr) by (intros E; apply (f_equal zv) in E; vm_compute in E; discriminate E).
  destruct (toy_params (zr 5)) as (g & pp & HG & Hg). exists g, pp. split; [exact HG|]. intros runs buffs.
  assert (Hco : Forall (fun run => coins_fit pp (snd (fst run))) runs) by (repeat (apply Forall_cons; split; [apply ex_coins_fit|]); constructor).
  assert (Eid : dense_id (ex_buff 123456789) = "123456789"%string) by (vm_compute; reflexivity).
  assert (Ed : draws dense_id [] buffs = [("123456789"%string, 666); ("123456789"%string, 666)]) by (unfold draws, buffs, runs; cbn [fmap list_fmap app mjoin list_join compose fst snd]; rewrite Eid; reflexivity).
  assert (Hfix : fixed_paths 7 (g 0%nat) (fun _ => ex_dense_p1) 11 (draws dense_id [] buffs)).
  { rewrite Ed. split; [lia|]. intros id z Hin. assert (id = "123456789"%string) as -> by (clear -Hin; repeat (apply elem_of_cons in Hin as [[= -> _]|Hin]; [reflexivity|]); exfalso; exact (proj1 (elem_of_nil _) Hin)).
    rewrite Hg. split; [exact ex_dense_path1|]. split; [reflexivity|]. unfold ex_dense_p1. repeat (apply Forall_cons; split; [lia|]). constructor. }
  assert (Hpt : puts_at (fun _ => ex_dense_p1) (take (11 - 1) ex_dense_p1) (draws dense_id [] buffs) = [(0%nat, 666); (0%nat, 666)]) by (rewrite Ed; vm_compute; reflexivity).
  assert (Hd : drift 7 (zr 5) {[0%nat := 666]} [(0%nat, 666)] <> 0%zr).
  { cbn [drift]. unfold drift_of. cbv zeta. rewrite insert_singleton, map_size_singleton, !sum_of_singleton by lia. rewrite lookup_singleton_ne by done. intros E. apply (f_equal zv) in E. vm_compute in E. discriminate E. }
  split; [exact Hfix|]. split; [exact Hco|]. split; [exact Hpt|]. split; [exact Hd|].
  exact (C88_fails toy 7 Dense (zr 5) g pp 0 ex_rnd ex_order dense_id (fun _ => ex_dense_p1) 11 [] runs (ex_buff 123456789) 0 666 [(0%nat, 666)] Hsup HG Hfl ex_order_perm Hα Hfix (List.Forall_nil _) eq_refl Hco (elem_of_list_here _ _) Hpt Hd).
Qed.

(** The same id in the population, set to 0, and measured: with the trapdoor 1 the benchmark completes, with the trapdoor 5 the drift is not zero. *)
Example C88_few_trapdoors_nonvacuous : exists g (pp : PolPP toy), GeneratePublicParams (C:=toy) 7 Dense 1%zr = Ret (g, pp) /\
  let buffs := [ex_buff 123456789] in let batches := [[ex_buff 123456789]] in
  fixed_paths 7 (g 0%nat) (fun _ => ex_dense_p1) 11 (draws dense_id batches buffs) /\
  puts_at (fun _ => ex_dense_p1) (take (11 - 1) ex_dense_p1) (draws dense_id batches buffs) = [(0%nat, 0); (0%nat, 666)] /\
  drift 7 (zr 5) {[0%nat := 0]} [(0%nat, 666)] <> 0%zr /\
  exists result, coins_fit pp (ex_coins pp) /\ benchmarkFanout (C:=toy) 7 Dense 1%zr 0 ex_rnd ex_order dense_id batches [(ex_buff 123456789, ex_coins pp, (1, 2))] = Ret result.
Proof.
  assert (Hsup : supported 7 Dense) by (exists 3; done). assert (Hfl : full_path_length 7 Dense 11) by (vm_compute; reflexivity).
  assert (Hdr : drift 7 1%zr {[0%nat := 0]} [(0%nat, 666)] = 0%zr).
  { cbn [drift]. unfold drift_of. cbv zeta. rewrite insert_singleton, map_size_singleton, !sum_of_singleton by lia. rewrite lookup_singleton_ne by done. apply Zr_eq. vm_compute. reflexivity. }
  assert (Hd5 : drift 7 (zr 5) {[0%nat := 0]} [(0%nat, 666)] <> 0%zr).
  { cbn [drift]. unfold drift_of. cbv zeta. rewrite insert_singleton, map_size_singleton, !sum_of_singleton by lia. rewrite lookup_singleton_ne by done. intros E. apply (f_equal zv) in E. vm_compute in E. discriminate E. }
  assert (Eid : dense_id (ex_buff 123456789) = "123456789"%string) by (vm_compute; reflexivity).
  assert (Ed : draws dense_id [[ex_buff 123456789]] [ex_buff 123456789] = [("123456789"%string, 0); ("123456789"%string, 666)]) by (unfold draws; cbn [imap fmap list_fmap app mjoin list_join compose fst snd]; rewrite Eid; reflexivity).
  assert (Hpt : puts_at (fun _ => ex_dense_p1) (take (11 - 1) ex_dense_p1) (draws dense_id [[ex_buff 123456789]] [ex_buff 123456789]) = [(0%nat, 0); (0%nat, 666)]) by (rewrite Ed; vm_compute; reflexivity).
  destruct (toy_params 1%zr) as (g & pp & HG & Hg). exists g, pp. split; [exact HG|]. intros buffs batches.
  assert (Hfix : fixed_paths 7 (g 0%nat) (fun _ => ex_dense_p1) 11 (draws dense_id batches buffs)).
  { unfold batches, buffs. rewrite Ed. split; [lia|]. intros id z Hin. assert (id = "123456789"%string) as -> by (clear -Hin; repeat (apply elem_of_cons in Hin as [[= -> _]|Hin]; [reflexivity|]); exfalso; exact (proj1 (elem_of_nil _) Hin)).
    rewrite Hg. split; [exact ex_dense_path1|]. split; [reflexivity|]. unfold ex_dense_p1. repeat (apply Forall_cons; split; [lia|]). constructor. }
  split; [exact Hfix|]. split; [exact Hpt|]. split; [exact Hd5|]. set (runs := [(ex_buff 123456789, ex_coins pp, (1, 2))]).
  assert (Hco : Forall (fun run => coins_fit pp (snd (fst run))) runs) by (apply Forall_cons; split; [apply ex_coins_fit|constructor]).
  assert (Hb : Forall (fun l : list bytes => length l <= 1000)%nat batches) by (apply Forall_cons; split; [apply Nat.leb_le; reflexivity|constructor]).
  assert (Hne : runs <> []) by (clear; unfold runs; discriminate).
  destruct (C88_completes_iff toy 7 Dense 1%zr g pp 0 ex_rnd ex_order dense_id (fun _ => ex_dense_p1) 11 batches runs Hsup HG Hfl ex_order_perm one_neq_0 Hfix Hb eq_refl Hne Hco) as (ls & _ & H).
  assert (Hl : Forall (fun run => lucky pp (g 0%nat) ls (dense_id (fst (fst run))) (snd (fst run))) runs) by (apply Forall_forall; intros run _; apply toy_lucky).
  assert (Hall : forall b, b ∈ fst ∘ fst <$> runs -> exists i z1 l, puts_at (fun _ => ex_dense_p1) (take (11 - 1) ex_dense_p1) (draws dense_id batches (fst ∘ fst <$> runs)) = (i, z1) :: l /\ drift 7 1%zr {[i := z1]} l = 0%zr).
  { intros b _. exists 0%nat, 0, [(0%nat, 666)]. split; [exact Hpt|exact Hdr]. }
  destruct (proj2 (H Hl) Hall) as [result Hres]. exists result. split; [apply ex_coins_fit|exact Hres].
Qed.

Print Assumptions C88_completes.
Print Assumptions C88_fails.
Print Assumptions C88_report.
Print Assumptions C88_completes_iff.
Print Assumptions C88_few_trapdoors.
Print Assumptions C88_dense.
