(** Property C84: one published root fits many trees, so the total does not cover the clients' liabilities. *)
From Verif Require Import Verkle_blind Pol_params Pol_run Pol_chain Prop_verkle Prop_set Prop_range Prop_sum Prop_poe Prop_accept Prop_liability Toy.
Local Open Scope Zr_scope.

(** ** Specification *)
(** The sum of the current liabilities below entry i of the root *)
Definition subtotal (F n : nat) (pathof : string -> path) (cs : list call) (i : nat) : Z :=
  total F (n - 1) (fun p => latest pathof (sets cs) (i :: p)).
(** Nothing but the commitment to the root's digests and the aggregated opening of the digests is exchanged. *)
Definition other_digests {C : Curve} (Σ : Zr) (π W : G1 C) (lp : LiabilityProof C) : LiabilityProof C :=
  MkLP Σ π (lp_sum lp) (lp_V lp) (<[0%nat := W]> (lp_W lp)) (lp_Digests lp) (lp_RangeProofs lp) (lp_Eq lp) (lp_Liability lp).

Lemma root_bf {C : Curve} F α (pp : PolPP C) rnd order id2path pathof n cs ls (w : Vertex C) : tree_params F α pp -> fixed_paths F id2path pathof n (sets cs) -> (1 <= n)%nat ->
  set_run pp rnd order id2path cs ls -> sets cs <> [] -> stored (vs_db (vt_state (ls_tree ls))) "" w -> v_bf w = rnd (n - 1)%nat.
Proof.
  intros Hp [HF Hg] Hn Hr Hne Hw. destruct (set_run_verkle F α _ _ _ _ _ _ Hp HF Hr) as [[Ho [db0 Ht]] _].
  destruct (verkle_births (C:=C) F α rnd order id2path pathof HF Ho n _ db0 _ Hg Ht) as [_ H].
  destruct (sets cs) as [|[id z] h] eqn:E; [done|]. destruct (H []) as (w' & Hw' & Hbf); [exists id, z; split; [left|apply prefix_nil]|cbn; lia|].
  change (path_key []) with "" in Hw'. rewrite (stored_fun _ _ _ _ Hw Hw'), Hbf. f_equal. cbn [fmap list_fmap]. unfold birth. cbn [first_put]. rewrite decide_True by apply prefix_nil. cbn [length]. lia.
Qed.

(** ** C84 *)
(** The commitment V of the root depends on the subtotals and one random value only. *)
Theorem C84_same_root : forall (C : Curve) F α (pp : PolPP C) rnd rnd' order order' id2path pathof pathof' n cs cs' ls ls' V V' W W',
  tree_params F α pp -> fixed_paths F id2path pathof n (sets cs) -> fixed_paths F id2path pathof' n (sets cs') -> (2 <= n)%nat ->
  set_run pp rnd order id2path cs ls -> set_run pp rnd' order' id2path cs' ls' -> sets cs <> [] -> sets cs' <> [] ->
  rnd (n - 1)%nat = rnd' (n - 1)%nat -> (forall i, (i < F)%nat -> subtotal F n pathof cs i = subtotal F n pathof' cs' i) ->
  current_root (C:=C) ls V W -> current_root (C:=C) ls' V' W' -> V = V'.
Proof.
  intros C F α pp rnd rnd' order order' id2path pathof pathof' n cs cs' ls ls' V V' W W' Hp Hf Hf' Hn Hr Hr' Hne Hne' Hbf Hsub (w & Hw & <- & _) (w' & Hw' & <- & _).
  destruct (root_vertex F α pp rnd order id2path pathof n cs ls Hp Hf ltac:(lia) Hr Hne) as (_ & x & _ & _ & Hx & S1 & S2 & S3). rewrite (stored_fun _ _ _ _ Hx Hw) in *. clear x Hx.
  destruct (root_vertex F α pp rnd' order' id2path pathof' n cs' ls' Hp Hf' ltac:(lia) Hr' Hne') as (_ & x & _ & _ & Hx & S1' & S2' & S3'). rewrite (stored_fun _ _ _ _ Hx Hw') in *. clear x Hx.
  pose proof (root_bf F α pp rnd order id2path pathof n cs ls w Hp Hf ltac:(lia) Hr Hne Hw) as B. pose proof (root_bf F α pp rnd' order' id2path pathof' n cs' ls' w' Hp Hf' ltac:(lia) Hr' Hne' Hw') as B'.
  destruct (S3 Hn) as [Hc _], (S3' Hn) as [Hc' _]. assert (E : values_vec F w = values_vec F w'); [|rewrite E, Hc' in Hc; injection Hc as ->; done].
  unfold values_vec. f_equal.
  - apply list_fmap_ext. intros k i Hi. apply lookup_seq in Hi as [-> Hi]. cbn [Nat.add]. rewrite S2, S2'. f_equal. apply Hsub. done.
  - rewrite S1, S1', B, B', Hbf. do 2 f_equal. unfold total_of. destruct n as [|n]; [lia|]. rewrite !total_S. apply sumZ_ext. intros i Hi%elem_of_seq. specialize (Hsub i ltac:(lia)). unfold subtotal in Hsub. replace (S n - 1)%nat with n in Hsub by lia. exact Hsub.
Qed.

(** Two sets with the same subtotals: a client of the second is convinced against the root published for the first.  All arguments in the
    two proofs are the honest prover's. *)
Theorem C84_two_trees_one_root : forall (C : Curve) F α (pp : PolPP C) rnd rnd' order order' id2path pathof pathof' cs cs' ls ls' id id' p p' z z' co co' lp lp' V W,
  honest_state F α pp rnd order id2path pathof cs ls id p z -> honest_state F α pp rnd' order' id2path pathof' cs' ls' id' p' z' ->
  length p = length p' -> rnd (length p - 1)%nat = rnd' (length p - 1)%nat ->
  (forall i, (i < F)%nat -> subtotal F (length p) pathof cs i = subtotal F (length p) pathof' cs' i) ->
  coins_fit pp co -> coins_fit pp co' ->
  ProveLiability pp id2path co ls id = Ret (Some (z, lp)) -> ProveLiability pp id2path co' ls' id' = Ret (Some (z', lp')) ->
  nonzero (proof_challenges pp lp) -> nonzero (proof_challenges pp lp') ->
  current_root (C:=C) ls V (Some W) ->
  (LiabilityProof_Verify lp pp id V W id2path = Ret nil_error /\ tp_Sum (lp_Liability lp) = z) /\
  (exists Σ π, LiabilityProof_Verify (other_digests Σ π W lp') pp id' V W id2path = Ret nil_error /\ tp_Sum (lp_Liability (other_digests Σ π W lp')) = z') /\
  (exists tp, ProveTot pp ls = Ret tp /\ TotalProof_Verify tp pp V = Ret nil_error /\ tp_Sum tp = total_of F (length p) pathof cs).
Proof.
  intros C F α pp rnd rnd' order order' id2path pathof pathof' cs cs' ls ls' id id' p p' z z' co co' lp lp' V W Hh Hh' Hl Hbf Hsub Hco Hco' HPL HPL' Hnz Hnz' Hroot.
  destruct (C53_accepted C F α pp rnd order id2path pathof cs ls id p z co z lp Hh Hco HPL) as (_ & HS & V1 & W1 & HR1 & Hacc).
  destruct (C53_accepted C F α pp rnd' order' id2path pathof' cs' ls' id' p' z' co' z' lp' Hh' Hco' HPL') as (_ & HS' & V2 & W2 & HR2 & Hacc').
  specialize (Hacc Hnz). specialize (Hacc' Hnz').
  pose proof Hh as (Hn & [k Hp] & Hf & Hr & Htot & Hid & Hlat & _). pose proof Hh' as (Hn' & _ & Hf' & Hr' & _ & _ & Hlat' & _). rewrite <- Hl in Hf'. pose proof (params_ok_tree _ _ _ _ _ Hp) as Ht.
  assert (Hne : sets cs <> []) by (intros E; rewrite E in Hlat; done). assert (Hne' : sets cs' <> []) by (intros E; rewrite E in Hlat'; done).
  assert (V1 = V /\ W1 = W) as [-> ->].
  { destruct HR1 as (w & Hw & <- & HW1), Hroot as (w2 & Hw2 & <- & HW2). rewrite (stored_fun _ _ _ _ Hw2 Hw) in *. split; [done|]. congruence. }
  assert (V2 = V) as ->. { symmetry. apply (C84_same_root C F α pp rnd rnd' order order' id2path pathof pathof' (length p) cs cs' ls ls' V V2 (Some W) (Some W2)); done. }
  split; [done|]. split.
  - (* the digests committed to in W *)
    destruct Hroot as (w & Hw & HV & HW). assert (Hv : verkle_run (C:=C) F α rnd order id2path (sets cs) (ls_tree ls)) by (apply (set_run_verkle F α pp); [exact Ht|apply Hf|exact Hr]).
    destruct (C46_digests C F α rnd order id2path pathof (length p) (sets cs) (ls_tree ls) [] Hf Hv) as (x & Hx & _ & W' & HW' & Hcm).
    { destruct (sets cs) as [|[i0 z0] h]; [done|]. exists i0, z0. split; [left|apply prefix_nil]. }
    { cbn. lia. }
    change (path_key []) with "" in Hx. rewrite (stored_fun _ _ _ _ Hx Hw) in *. rewrite HW in HW'. injection HW' as <-.
    destruct (C57_any_root_digests C F α pp rnd' order' id2path pathof' cs' ls' id' p' z' co' z' lp' V W2 (digests_vec F w) Hh' Hco' HPL' Hacc') as (W'' & Σ & π & HC & Hv').
    { unfold digests_vec. rewrite app_length, fmap_length, seq_length. cbn. lia. }
    destruct Ht as [_ HPP]. rewrite HPP, Hcm in HC. injection HC as <-. exists Σ, π. split; [exact Hv'|exact HS'].
  - destruct (C50_total_proof_complete C F α pp rnd order id2path pathof (length p) cs ls Ht Hf Hn Hr Hne Htot) as (tp & V3 & W3 & HP & HT & HR3 & HTV).
    exists tp. split; [exact HP|]. split; [|exact HT]. assert (V3 = V) as <-; [|exact HTV]. destruct HR3 as (a & Ha & <- & _), Hroot as (b & Hb & <- & _). rewrite (stored_fun _ _ _ _ Ha Hb). done.
Qed.

(** A set with one client *)
Lemma single_state {C : Curve} F α n k (pp : PolPP C) rnd order id2path id p z ls : params_ok F α n k pp -> (2 <= n)%nat ->
  id2path id = Ret p -> length p = n -> Forall (fun i => i < F)%nat p -> (0 <= z < 2 ^ 63)%Z -> set_run pp rnd order id2path [CSet id z] ls ->
  honest_state F α pp rnd order id2path (fun _ => p) [CSet id z] ls id p z /\ total_of F n (fun _ => p) [CSet id z] = z.
Proof.
  intros Hp Hn Hid Hl HF Hz H1.
  assert (Hf : fixed_paths F id2path (fun _ => p) n [(id, z)]).
  { split; [destruct Hp as (E & Hk & _); assert (2 ^ k <= 2 ^ 15)%nat by (apply Nat.pow_le_mono_r; lia); change (2 ^ 15)%nat with (Z.to_nat 32768) in *; lia|].
    intros id0 z0 Hin. apply elem_of_list_singleton in Hin. injection Hin as -> ->. done. }
  assert (HT : total_of F n (fun _ => p) [CSet id z] = z).
  { unfold total_of. cbn [sets omap list_omap]. rewrite (total_ext F n _ (fun q => if decide (p = q) then Some z else None)) by (intros q _; cbn; done).
    rewrite <- Hl, (total_point F p (fun _ => None) z HF). rewrite total_empty by done. cbn. lia. }
  split; [|exact HT]. unfold honest_state. rewrite Hl. split; [exact Hn|]. split; [by exists k|]. split; [exact Hf|]. split; [exact H1|].
  split; [rewrite HT; lia|]. split; [exact Hid|]. split; [cbn; by rewrite decide_True|]. unfold bottom_set_once. cbn [sets omap list_omap].
  rewrite filter_cons_True; [done|]. cbn. unfold prefix. exists (drop (length p - 1) p). rewrite take_drop. done.
Qed.
Lemma single_run {C : Curve} F α n k (pp : PolPP C) rnd order id2path id p z : params_ok F α n k pp -> (2 <= n)%nat -> (forall k b m, order k b m ≡ₚ map_to_list m) ->
  id2path id = Ret p -> length p = n -> Forall (fun i => i < F)%nat p -> (0 <= z < 2 ^ 63)%Z -> exists ls, set_run pp rnd order id2path [CSet id z] ls.
Proof.
  intros Hp Hn Ho Hid Hl HF Hz. pose proof (params_ok_tree _ _ _ _ _ Hp) as Ht.
  assert (Hf : fixed_paths F id2path (fun _ => p) n [(id, z)]).
  { split; [destruct Hp as (E & Hk & _); assert (2 ^ k <= 2 ^ 15)%nat by (apply Nat.pow_le_mono_r; lia); change (2 ^ 15)%nat with (Z.to_nat 32768) in *; lia|].
    intros id0 z0 Hin. apply elem_of_list_singleton in Hin. injection Hin as -> ->. done. }
  assert (H0 : set_run pp rnd order id2path [] (NewLiabilitySet ∅)) by (split; [done|exists ∅; done]).
  destruct (C44_set_never_fails C F α pp rnd order id2path (fun _ => p) n [] (NewLiabilitySet ∅) id z Ht Hf H0 ltac:(lia)) as [ls Hls].
  exists ls. apply (set_run_app _ _ _ _ [] [CSet id z] _ _ H0). cbn [do_calls do_call]. rewrite Hls. exact Logic.eq_refl.
Qed.

(** The total does not cover the liabilities: any two clients whose paths start alike are both convinced that their liability z is counted in a total of z. *)
Theorem C84_total_covers_refuted : forall (C : Curve) F α n k (pp : PolPP C) rnd order id2path id id' p p' z co co',
  params_ok F α n k pp -> (2 <= n)%nat -> (forall k b m, order k b m ≡ₚ map_to_list m) ->
  id2path id = Ret p -> id2path id' = Ret p' -> length p = n -> length p' = n -> Forall (fun i => i < F)%nat p -> Forall (fun i => i < F)%nat p' ->
  head p = head p' -> (0 <= z < 2 ^ 63)%Z -> coins_fit pp co -> coins_fit pp co' ->
  exists ls ls' V W tp, set_run pp rnd order id2path [CSet id z] ls /\ set_run pp rnd order id2path [CSet id' z] ls' /\ current_root (C:=C) ls V (Some W) /\
    ProveTot pp ls = Ret tp /\ TotalProof_Verify tp pp V = Ret nil_error /\ tp_Sum tp = z /\
    forall lp lp', ProveLiability pp id2path co ls id = Ret (Some (z, lp)) -> ProveLiability pp id2path co' ls' id' = Ret (Some (z, lp')) ->
      nonzero (proof_challenges pp lp) -> nonzero (proof_challenges pp lp') ->
      LiabilityProof_Verify lp pp id V W id2path = Ret nil_error /\ tp_Sum (lp_Liability lp) = z /\
      exists lp'', LiabilityProof_Verify lp'' pp id' V W id2path = Ret nil_error /\ tp_Sum (lp_Liability lp'') = z.
Proof.
  intros C F α n k pp rnd order id2path id id' p p' z co co' Hp Hn Ho Hid Hid' Hl Hl' HF HF' Hhd Hz Hco Hco'.
  destruct (single_run F α n k pp rnd order id2path id p z Hp Hn Ho Hid Hl HF Hz) as [ls Hr]. destruct (single_run F α n k pp rnd order id2path id' p' z Hp Hn Ho Hid' Hl' HF' Hz) as [ls' Hr'].
  destruct (single_state F α n k pp rnd order id2path id p z ls Hp Hn Hid Hl HF Hz Hr) as (Hh & HT).
  destruct (single_state F α n k pp rnd order id2path id' p' z ls' Hp Hn Hid' Hl' HF' Hz Hr') as (Hh' & HT').
  pose proof (params_ok_tree _ _ _ _ _ Hp) as Ht. pose proof Hh as (_ & _ & Hf & _ & Htot & _). rewrite Hl in Hf, Htot.
  destruct (C50_total_proof_complete C F α pp rnd order id2path (fun _ => p) n [CSet id z] ls Ht Hf Hn Hr ltac:(done) Htot) as (tp & V & W & HP & HS & HR & HV).
  assert (HW : exists W', W = Some W').
  { destruct (root_vertex F α pp rnd order id2path (fun _ => p) n [CSet id z] ls Ht Hf ltac:(lia) Hr ltac:(done)) as (_ & x & _ & _ & Hx & _ & _ & Hc). destruct (Hc Hn) as [_ [W' HW']]. exists W'.
    destruct HR as (w & Hw & _ & <-). rewrite (stored_fun _ _ _ _ Hw Hx). done. }
  destruct HW as [W' ->]. exists ls, ls', V, W', tp. split; [exact Hr|]. split; [exact Hr'|]. split; [exact HR|]. split; [exact HP|]. split; [exact HV|]. split; [rewrite HS; exact HT|].
  intros lp lp' HPL HPL' Hnz Hnz'.
  destruct (C84_two_trees_one_root C F α pp rnd rnd order order id2path (fun _ => p) (fun _ => p') [CSet id z] [CSet id' z] ls ls' id id' p p' z z co co' lp lp' V W' Hh Hh') as ((A1 & A2) & (Σ & π & B1 & B2) & _); try done; [congruence| |].
  - intros i Hi. unfold subtotal. cbn [sets omap list_omap]. destruct p as [|d q]; [cbn in Hl; lia|]. destruct p' as [|d' q']; [cbn in Hl'; lia|]. injection Hhd as <-.
    apply Forall_cons in HF as [_ HF], HF' as [_ HF']. cbn [length] in *. replace (S (length q) - 1)%nat with (length q) by lia. destruct (decide (d = i)) as [->|Hd].
    + rewrite (total_ext F (length q) _ (fun r => if decide (q = r) then Some z else None)), (total_ext F (length q) (fun r => latest (fun _ => i :: q') _ (i :: r)) (fun r => if decide (q' = r) then Some z else None)).
      * rewrite (total_point F q (fun _ => None) z HF). replace (length q) with (length q') by lia. rewrite (total_point F q' (fun _ => None) z HF'). rewrite !total_empty by done. done.
      * intros r _. cbn. destruct (decide (i :: q' = i :: r)), (decide (q' = r)); congruence.
      * intros r _. cbn. destruct (decide (i :: q = i :: r)), (decide (q = r)); congruence.
    + rewrite !total_empty; [done|..]; intros r _; cbn; rewrite decide_False by congruence; done.
  - split; [exact A1|]. split; [exact A2|]. eexists. split; [exact B1|exact B2].
Qed.

(** ** A concrete case: two clients of a dense set with fanout 7; both are convinced of 5, and the total is 5. *)
Lemma toy_proof_exists F α (pp : PolPP toy) rnd order id2path pathof cs ls id p z : honest_state F α pp rnd order id2path pathof cs ls id p z ->
  exists lp, ProveLiability pp id2path (ex_coins pp) ls id = Ret (Some (z, lp)).
Proof.
  intros Hh. destruct (C53_returned toy F α pp rnd order id2path pathof cs ls id p z (ex_coins pp) Hh (ex_coins_fit pp)) as (ws & rps & _ & _ & _ & _ & HPL).
  destruct HPL as (lp & HPL & _); [|exists lp; exact HPL].
  generalize (v_V <$> ws). induction rps as [|rp l IH]; intros [|V k']; [constructor..|]. cbn [zip_with concat]. apply Forall_app. split; [apply toy_range_challenges|apply IH].
Qed.
Example C84_nonvacuous : exists (pp : PolPP toy) g ls ls' V W tp lp lp', GeneratePublicParams 7 Dense (zr 5) = Ret (g, pp) /\
  set_run pp ex_rnd ex_order (g 0%nat) [CSet "123456789" 5] ls /\ set_run pp ex_rnd ex_order (g 0%nat) [CSet "123456796" 5] ls' /\ current_root (C:=toy) ls V (Some W) /\
  ProveTot pp ls = Ret tp /\ TotalProof_Verify tp pp V = Ret nil_error /\ tp_Sum tp = 5%Z /\
  LiabilityProof_Verify lp pp "123456789" V W (g 0%nat) = Ret nil_error /\ tp_Sum (lp_Liability lp) = 5%Z /\
  LiabilityProof_Verify lp' pp "123456796" V W (g 0%nat) = Ret nil_error /\ tp_Sum (lp_Liability lp') = 5%Z.
Proof.
  assert (Hsup : supported 7 Dense) by (exists 3%Z; done).
  destruct (generate_spec (C:=toy) 7 Dense (zr 5) Hsup) as (n & g & pp & k & HG & Hfl & _ & Hp & (h & Hh & Hg) & _).
  rewrite (DigitPath_pow2 3 ltac:(lia) : DigitPath 7 = Ret (digit_path 7)) in Hh. injection Hh as <-.
  assert (n = 11%nat) as -> by (assert (E : full_path_length 7 Dense 11) by done; unfold full_path_length in Hfl, E; congruence).
  change (Z.to_nat 7) with 7%nat in Hp.
  assert (P1 : g 0%nat "123456789"%string = Ret [1;2;2;6;3;2;6;2;0;3;0]%nat) by (rewrite Hg; exact ex_dense_path1).
  assert (P2 : g 0%nat "123456796"%string = Ret [1;3;2;6;3;2;6;2;0;3;0]%nat) by (rewrite Hg; vm_compute; reflexivity).
  assert (F1 : Forall (fun i => i < 7)%nat [1;2;2;6;3;2;6;2;0;3;0]%nat) by (repeat constructor).
  assert (F2 : Forall (fun i => i < 7)%nat [1;3;2;6;3;2;6;2;0;3;0]%nat) by (repeat constructor).
  destruct (C84_total_covers_refuted toy 7 (zr 5) 11 k pp ex_rnd ex_order (g 0%nat) "123456789" "123456796" _ _ 5 (ex_coins pp) (ex_coins pp) Hp ltac:(lia) ltac:(intros; apply ex_order_perm) P1 P2 eq_refl eq_refl F1 F2 eq_refl ltac:(lia) (ex_coins_fit pp) (ex_coins_fit pp))
    as (ls & ls' & V & W & tp & R1 & R2 & H3 & H4 & H5 & H6 & H7).
  destruct (single_state 7 (zr 5) 11 k pp ex_rnd ex_order (g 0%nat) "123456789" _ 5 ls Hp ltac:(lia) P1 eq_refl F1 ltac:(lia) R1) as (Hh & _).
  destruct (single_state 7 (zr 5) 11 k pp ex_rnd ex_order (g 0%nat) "123456796" _ 5 ls' Hp ltac:(lia) P2 eq_refl F2 ltac:(lia) R2) as (Hh' & _).
  destruct (toy_proof_exists _ _ _ _ _ _ _ _ _ _ _ _ Hh) as [lp L1]. destruct (toy_proof_exists _ _ _ _ _ _ _ _ _ _ _ _ Hh') as [lp' L2].
  destruct (H7 lp lp' L1 L2 (toy_proof_challenges pp lp) (toy_proof_challenges pp lp')) as (A1 & A2 & lp'' & B1 & B2).
  exists pp, g, ls, ls', V, W, tp, lp, lp''. split; [exact HG|]. split; [exact R1|]. split; [exact R2|]. split; [exact H3|]. split; [exact H4|]. split; [exact H5|]. split; [exact H6|].
  split; [exact A1|]. split; [exact A2|]. split; [exact B1|exact B2].
Qed.

Print Assumptions C84_same_root.
Print Assumptions C84_two_trees_one_root.
Print Assumptions C84_total_covers_refuted.
