(** Property C87: what becomes of a client's proof when the vertex above their liability was set more than once.

    Specification: as in Prop_liability.v; [drift] (Bottom_drift.v) is computed from the Sets of the history that went through
    that vertex, and nothing else. *)
From Verif Require Export Bottom_drift Prop_liability.
From Verif Require Import Prop_overlap Prop_ipa Range_run Range_prover Extract Liability_run Prop_total Prop_paths Prop_range Prop_sum Prop_poe Prop_pp Prop_params Pp_facts Toy Prop_views Pol_chain Pol_run.
Local Open Scope Zr_scope.

(** A state with a liability z recorded for id, whose path is p: [honest_state] without the restriction to one Set *)
Definition recorded_state {C : Curve} (F : nat) (α : Zr) (pp : PolPP C) rnd order id2path pathof cs ls id p z : Prop :=
  (2 <= length p)%nat /\ (exists k, params_ok F α (length p) k pp) /\ fixed_paths F id2path pathof (length p) (sets cs) /\
  set_run pp rnd order id2path cs ls /\ (total_of F (length p) pathof cs < 2 ^ 63)%Z /\
  id2path id = Ret p /\ latest pathof (sets cs) p = Some z.
(** The Sets that went through the vertex above the liability of path p: (i, z1) first, then l *)
Definition bottom_puts pathof cs (p : path) (i : nat) (z1 : Z) (l : list (nat * Z)) : Prop :=
  puts_at pathof (take (length p - 1) p) (sets cs) = (i, z1) :: l.

Lemma recorded_chain {C : Curve} F α (pp : PolPP C) rnd order id2path pathof cs ls id p z : recorded_state F α pp rnd order id2path pathof cs ls id p z ->
  exists k ws, params_ok F α (length p) k pp /\ VGet (C:=C) id2path (ls_tree ls) id = Ret (Some (z, ws)) /\ chain0 F α p ws z /\
    (forall j w, ws !! j = Some w -> stored (vs_db (vt_state (ls_tree ls))) (path_key (take j p)) w).
Proof.
  intros (H1 & [k H2] & H3 & H4 & H5 & H6 & H7). destruct (run_chain0 F α pp rnd order id2path pathof (length p) cs ls id p z) as (ws & A & B & D); try done; [by apply (params_ok_tree _ _ (length p) k)|].
  exists k, ws. done.
Qed.
Lemma eq_exponent {C : Curve} F α n k (pp : PolPP C) : params_ok F α n k pp -> exists j, length (pe_G (po_POEPP pp)) = (2 ^ j)%nat.
Proof. intros (_ & _ & _ & _ & _ & _ & _ & _ & _ & _ & j & _ & Hpoe & _). exists j. apply Hpoe. Qed.

(** A proof is returned all the same, unless a challenge of one of the range proofs is zero. *)
Theorem C87_returned (C : Curve) F α (pp : PolPP C) rnd order id2path pathof cs ls id p z co :
  recorded_state F α pp rnd order id2path pathof cs ls id p z -> coins_fit pp co ->
  exists ws rps, VGet (C:=C) id2path (ls_tree ls) id = Ret (Some (z, ws)) /\ length ws = length p /\ length rps = length p /\
    (forall i w rp, ws !! i = Some w -> rps !! i = Some rp ->
       exists ipaPP, ProveRange_unchecked (po_RPPP pp) (v_V w) (Vertex_Values w (F + 1)) (v_bf w) (pc_range co i) = Ret (rp, ipaPP)) /\
    (nonzero (concat (zip_with (range_challenges (po_RPPP pp)) rps (v_V <$> ws))) ->
     exists lp, ProveLiability pp id2path co ls id = Ret (Some (z, lp)) /\ lp_RangeProofs lp = rps).
Proof.
  intros Hs Hco. destruct (recorded_chain F α pp rnd order id2path pathof cs ls id p z Hs) as (k & ws & Hp & HG & Hch & _). pose proof Hs as (Hn & _ & _ & _ & _ & Hid & _).
  destruct (eq_exponent F α _ k pp Hp) as [j Hj].
  destruct (ranges_run F α k j pp p ws z co Hp Hj Hn Hch Hco) as (rps & Lr & Hsh & Hrps). exists ws, rps. split; [exact HG|]. split; [apply (c0_len _ _ _ _ _ Hch)|]. split; [exact Lr|].
  split; [intros i w rp Hw Hrp; by apply (Hrps i w rp Hw Hrp)|]. intros Hnz.
  destruct (proof_run F α k j pp p ws z co Hp Hj Hn Hch Hco rps ls id id2path Lr Hsh) as (lp & wl & il & HPL & HR & _); [|done|done|eauto].
  intros i w rp Hw Hrp. apply (Hrps i w rp Hw Hrp). apply (nonzero_concat _ _ _ i rp (v_V w) Hnz Hrp). rewrite list_lookup_fmap, Hw. done.
Qed.

(** The verdict on it: decided by the drift.  If it is zero, the proof is accepted against the current root (unless a challenge
    is zero); if not, the verifier returns an error, for any root. *)
Theorem C87_verdict (C : Curve) F α (pp : PolPP C) rnd order id2path pathof cs ls id p z co z' lp i z1 l :
  recorded_state F α pp rnd order id2path pathof cs ls id p z -> α <> 0 -> coins_fit pp co -> bottom_puts pathof cs p i z1 l ->
  ProveLiability pp id2path co ls id = Ret (Some (z', lp)) ->
  z' = z /\ tp_Sum (lp_Liability lp) = z /\
  (drift F α {[i := z1]} l = 0 -> exists V W, current_root ls V (Some W) /\
     (nonzero (proof_challenges pp lp) -> LiabilityProof_Verify lp pp id V W id2path = Ret nil_error)) /\
  (drift F α {[i := z1]} l <> 0 -> forall V W, exists s, LiabilityProof_Verify lp pp id V W id2path = Ret (Err s)).
Proof.
  intros Hs Hα Hco Hbp HPL. destruct (recorded_chain F α pp rnd order id2path pathof cs ls id p z Hs) as (k & ws & Hp & HG & Hch & Hst).
  pose proof Hs as (Hn & _ & Hf & Hrun & _ & Hid & _). destruct (eq_exponent F α _ k pp Hp) as [j Hj].
  pose proof Hch as [L Hpath _ _ _ _ _ _ Hbot _]. pose proof Hp as (_ & _ & _ & HPP & _).
  destruct (ranges_run F α k j pp p ws z co Hp Hj Hn Hch Hco) as (rps & Lr & Hsh & Hrps).
  assert (HR : forall i w rp, ws !! i = Some w -> rps !! i = Some rp -> ProveRange (po_RPPP pp) (v_V w) (Vertex_Values w (F + 1)) (v_bf w) (pc_range co i) = Ret rp).
  { apply (proof_run_inv F α k j pp p ws z co Hp Hj Hn Hch rps ls id id2path z' lp); try done. intros i' w rp Hw Hrp. apply (Hrps i' w rp Hw Hrp). }
  destruct (proof_run F α k j pp p ws z co Hp Hj Hn Hch Hco rps ls id id2path Lr Hsh HR Hid HG) as (lp' & wl & il & HPL' & _ & HV & Hshape & Hwl & Hil & Hliab).
  rewrite HPL in HPL'. injection HPL' as -> <-. split; [done|]. split; [rewrite Hliab; done|].
  assert (HilF : (il < F)%nat) by (rewrite Forall_forall in Hpath; apply Hpath; rewrite last_lookup in Hil; apply elem_of_list_lookup; eauto).
  destruct (Hbot wl il Hwl Hil) as (_ & _ & Hzl).
  (* the commitment of the last vertex *)
  assert (Hright : v_V wl = commitment (F + 2) α (values_vec F wl) <-> drift F α {[i := z1]} l = 0).
  { destruct Hf as [HF Hg]. destruct (set_run_verkle F α _ _ _ _ _ _ (params_ok_tree _ _ (length p) k _ Hp) HF Hrun) as [Hvr _].
    assert (Hlen : S (length (take (length p - 1) p)) = length p) by (rewrite take_length; lia).
    destruct (bottom_right_iff (C:=C) F α rnd order id2path pathof (take (length p - 1) p) (sets cs) (ls_tree ls) (i, z1) l) as (w & Hw & Hiff); [rewrite Hlen; split; done|exact Hvr|exact Hbp|].
    assert (w = wl) as ->. { rewrite last_lookup in Hwl. replace (pred (length ws)) with (length p - 1)%nat in Hwl by lia. apply (stored_fun _ _ _ _ Hw (Hst _ _ Hwl)). }
    cbn [fst snd] in Hiff. rewrite <- Hiff, commit_spec by (rewrite ?values_vec_length; lia). split; [by intros <-|]. intros E. congruence. }
  split.
  - intros Hd. apply Hright in Hd. destruct (lookup_lt_is_Some_2 ws 0%nat ltac:(lia)) as [w0 Hw0].
    destruct (chain_proof F α k pp id2path ls id p z ws w0 co z lp Hn Hid Hp HG) as (_ & ws' & w0' & _ & _ & Hs0 & _ & _ & _ & W & HW & Hacc); try done.
    { apply chain0_chain; [exact Hch|]. intros w Hw. rewrite Hwl in Hw. injection Hw as <-. exact Hd. } { apply (Hst 0%nat w0 Hw0). }
    exists (v_V w0'), W. split; [by exists w0'|]. intros Hnz. apply C55_acceptance. exists p. split; [done|]. apply Hacc. exact Hnz.
  - intros Hd V W. destruct (C83_liability_returns C F α (length p) k j pp lp id V W id2path p Hp Hj Hn Hid Logic.eq_refl Hpath Hshape) as [e He]. destruct e as [|s]; [|by exists s].
    exfalso. apply C55_acceptance in He as (p' & Hid' & [_ _ _ _ _ _ _ _ _ _ (Vn & i' & HVn & Hi' & HVer)]). rewrite Hid in Hid'. injection Hid' as <-.
    rewrite Hil in Hi'. injection Hi' as <-. rewrite HV, fmap_last, Hwl in HVn. injection HVn as <-. rewrite Hliab, HPP in HVer. cbn [tp_Sum tp_proof] in HVer.
    apply Hd, Hright. by apply (last_check F α wl il z Hα HilF Hzl).
Qed.

Lemma all_or_one {A} (P Q : A -> Prop) (l : list A) : (forall x, x ∈ l -> P x \/ Q x) -> (forall x, x ∈ l -> P x) \/ exists x, x ∈ l /\ Q x.
Proof.
  induction l as [|a l IH]; intros H; [left; intros x Hx; by apply elem_of_nil in Hx|]. destruct (H a ltac:(left)) as [Ha|Ha]; [|right; exists a; split; [left|done]].
  destruct IH as [IH|(x & Hx & HQ)]; [intros x Hx; apply H; by right| |right; exists x; split; [by right|done]]. left. intros x Hx. apply elem_of_cons in Hx as [->|Hx]; auto.
Qed.
Lemma prove_range_outcome {C : Curve} k (pp : RPPP C) V v r co rp ipaPP : params_for k pp -> coins_ok (2 ^ k) co -> length v = (2 ^ k)%nat -> Forall (fun x => (zv x < 2 ^ 63)%Z) v ->
  ProveRange_unchecked pp V v r co = Ret (rp, ipaPP) -> ProveRange pp V v r co = Ret rp \/ ProveRange pp V v r co = Panic.
Proof.
  intros HR Hco Hv Hs Hun. apply params_for_wf in HR. destruct (prove_range_run k pp V v r co HR Hco Hv Hs) as (rp' & H1 & _ & H3 & _). rewrite Hun in H1. injection H1 as <- ->.
  destruct (C15_enough_returns C (rg_ipa pp (rv_y0 pp rp V)) (k + 6) (rp_Π rp)) as [e He].
  - destruct HR as (_ & _ & HH & _). cbn [rg_ipa bp_G]. rewrite HH, rp_len. done.
  - destruct HR as (_ & _ & _ & HF). cbn [rg_ipa bp_H]. rewrite rg_Fp_length, HF, rp_len. done.
  - lia.
  - unfold ProveRange. rewrite Hun. cbn [rbind]. rewrite He. cbn [rbind]. destruct e; [by left|by right].
Qed.
(** There are two outcomes only: ProveLiability panics, or it returns a proof that every verifier gets an answer on, whatever the root. *)
Theorem C87_outcome (C : Curve) F α (pp : PolPP C) rnd order id2path pathof cs ls id p z co :
  recorded_state F α pp rnd order id2path pathof cs ls id p z -> coins_fit pp co ->
  ProveLiability pp id2path co ls id = Panic \/
  exists lp, ProveLiability pp id2path co ls id = Ret (Some (z, lp)) /\ forall V W, exists e, LiabilityProof_Verify lp pp id V W id2path = Ret e.
Proof.
  intros Hs Hco. destruct (recorded_chain F α pp rnd order id2path pathof cs ls id p z Hs) as (k & ws & Hp & HG & Hch & _). pose proof Hs as (Hn & _ & _ & _ & _ & Hid & _).
  destruct (eq_exponent F α _ k pp Hp) as [j Hj]. pose proof Hch as [L Hpath _ _ Hr _ _ _ _ _].
  destruct (ranges_run F α k j pp p ws z co Hp Hj Hn Hch Hco) as (rps & Lr & Hsh & Hrps).
  assert (Hout : forall i w rp, ws !! i = Some w -> rps !! i = Some rp ->
    let R := ProveRange (po_RPPP pp) (v_V w) (Vertex_Values w (F + 1)) (v_bf w) (pc_range co i) in R = Ret rp \/ R = Panic).
  { intros i w rp Hw Hrp. destruct (Hrps i w rp Hw Hrp) as [[ipaPP Hun] _]. pose proof Hp as (EF & _ & _ & _ & HR & _). rewrite Forall_lookup in Hr. specialize (Hr i w Hw).
    destruct Hco as (Hcr & _). rewrite (proj1 (proj2 (params_for_wf _ _ HR))) in Hcr.
    apply (prove_range_outcome k (po_RPPP pp) _ _ _ _ rp ipaPP HR); [apply Hcr|rewrite (values_length F w); done| |exact Hun]. eapply Forall_impl; [exact Hr|]. intros x Hx. exact Hx. }
  destruct (all_or_one (fun i => forall w rp, ws !! i = Some w -> rps !! i = Some rp -> ProveRange (po_RPPP pp) (v_V w) (Vertex_Values w (F + 1)) (v_bf w) (pc_range co i) = Ret rp)
    (fun i => exists w, ws !! i = Some w /\ ProveRange (po_RPPP pp) (v_V w) (Vertex_Values w (F + 1)) (v_bf w) (pc_range co i) = Panic) (seq 0 (length p))) as [Hall|(i & Hi & w & Hw & HP)].
  { intros i Hi. apply elem_of_seq in Hi. destruct (lookup_lt_is_Some_2 ws i ltac:(lia)) as [w Hw], (lookup_lt_is_Some_2 rps i ltac:(lia)) as [rp Hrp].
    destruct (Hout i w rp Hw Hrp) as [E|E]; [left; intros w' rp' Hw' Hrp'|right; exists w; done]. rewrite Hw in Hw'. rewrite Hrp in Hrp'. injection Hw' as <-. injection Hrp' as <-. exact E. }
  - right. destruct (proof_run F α k j pp p ws z co Hp Hj Hn Hch Hco rps ls id id2path Lr Hsh) as (lp & wl & il & HPL & _ & _ & Hshape & _); [|done|done|].
    { intros i w rp Hw Hrp. apply (Hall i); [|done|done]. apply elem_of_seq. apply lookup_lt_Some in Hw. lia. }
    exists lp. split; [exact HPL|]. intros V W. apply (C83_liability_returns C F α (length p) k j pp lp id V W id2path p Hp Hj Hn Hid Logic.eq_refl Hpath Hshape).
  - left. unfold ProveLiability. rewrite Hid. cbn [rbind]. rewrite HG. cbn [rbind]. rewrite (proj2 (Nat.leb_le 1 (length p))) by lia. cbn [rbind].
    destruct (mapM_total (fun i => idx ws i) (seq 0 (length p))) as [vs Hvs].
    { intros m Hm. apply elem_of_seq in Hm. destruct (lookup_lt_is_Some_2 ws m ltac:(lia)) as [w' Hw']. exists w'. unfold idx. rewrite Hw'. done. }
    rewrite Hvs. cbn [rbind]. rewrite (mapM_panics _ (seq 0 (length p)) i Hi); [done| |].
    + unfold idx. rewrite Hw. cbn [rbind]. unfold prove_range_of. rewrite (pp_fanout F α _ k pp Hp). exact HP.
    + intros m Hm. apply elem_of_seq in Hm. destruct (lookup_lt_is_Some_2 ws m ltac:(lia)) as [w' Hw'], (lookup_lt_is_Some_2 rps m ltac:(lia)) as [rp' Hrp'].
      unfold idx. rewrite Hw'. cbn [rbind]. unfold prove_range_of. rewrite (pp_fanout F α _ k pp Hp). destruct (Hout m w' rp' Hw' Hrp') as [E|E]; rewrite E; done.
Qed.

(** The same history under different trapdoors: if the drift is not zero for one of them, the client is convinced with at most F+1
    (nonzero) trapdoors, whatever the random values. *)
Definition convinced (C : Curve) F α id2path pathof h id p z : Prop :=
  exists (pp : PolPP C) rnd order cs ls co lp V W, recorded_state F α pp rnd order id2path pathof cs ls id p z /\ sets cs = h /\ coins_fit pp co /\
    ProveLiability pp id2path co ls id = Ret (Some (z, lp)) /\ LiabilityProof_Verify lp pp id V W id2path = Ret nil_error.
Lemma few_trapdoors (C : Curve) F id2path pathof h id p z i z1 l αs :
  puts_at pathof (take (length p - 1) p) h = (i, z1) :: l ->
  NoDup αs -> 0 ∉ αs -> (forall α, α ∈ αs -> convinced C F α id2path pathof h id p z) ->
  (F + 1 < length αs)%nat -> Forall (fun c => c = 0) (drift_poly F {[i := z1]} l).
Proof.
  intros Hbp Hnd H0 Hall Hlen. destruct αs as [|α0 αs'] eqn:Eα; [cbn in Hlen; lia|]. rewrite <- Eα in *.
  assert (Hfit : Forall (fun e => fst e < F)%nat ((i, z1) :: l)).
  { destruct (Hall α0) as (pp & rnd & order & cs & ls & co & lp & V & W & Hs & Hh & _); [rewrite Eα; left|]. destruct Hs as (Hn & _ & Hf & _). rewrite Hh in Hf. rewrite <- Hbp.
    apply (puts_at_fits F id2path). rewrite take_length. replace (S (Nat.min (length p - 1) (length p))) with (length p) by lia. exact Hf. }
  apply Forall_cons in Hfit as [Hi Hfit]. cbn in Hi.
  assert (HM : fits F {[i := z1]}) by (intros j Hj; destruct (decide (i = j)) as [<-|Hne]; [done|rewrite lookup_singleton_ne in Hj by done; by destruct Hj]).
  apply (poly_roots _ (take (F + 2) αs)).
  - rewrite drift_poly_length, take_length. lia.
  - apply (NoDup_app (take (F + 2) αs) (drop (F + 2) αs)). rewrite take_drop. done.
  - apply Forall_forall. intros α Hin. apply elem_take in Hin. rewrite (drift_poly_eval F α l _ HM Hfit).
    destruct (Hall α Hin) as (pp & rnd & order & cs & ls & co & lp & V & W & Hs & Hh & Hco & HPL & Hv).
    destruct (C87_verdict C F α pp rnd order id2path pathof cs ls id p z co z lp i z1 l Hs) as (_ & _ & _ & Hrej); [intros ->; done|done|unfold bottom_puts; rewrite Hh; exact Hbp|done|].
    destruct (decide (drift F α {[i := z1]} l = 0)) as [E|E]; [exact E|]. destruct (Hrej E V W) as [s Hs']. rewrite Hv in Hs'. done.
Qed.
Theorem C87_few_trapdoors (C : Curve) F id2path pathof h id p z i z1 l α0 αs :
  puts_at pathof (take (length p - 1) p) h = (i, z1) :: l -> drift F α0 {[i := z1]} l <> 0 ->
  NoDup αs -> 0 ∉ αs -> (forall α, α ∈ αs -> convinced C F α id2path pathof h id p z) -> (length αs <= F + 1)%nat.
Proof.
  intros Hbp Hd Hnd H0 Hall. destruct (decide (length αs <= F + 1)%nat) as [|Hgt]; [done|]. exfalso. apply Hd.
  pose proof (few_trapdoors C F id2path pathof h id p z i z1 l αs Hbp Hnd H0 Hall ltac:(lia)) as Hz.
  destruct αs as [|α αs']; [cbn in Hgt; lia|]. destruct (Hall α ltac:(left)) as (pp & rnd & order & cs & ls & co & lp & V & W & Hs & Hh & _). destruct Hs as (Hn & _ & Hf & _). rewrite Hh in Hf.
  assert (Hfit : Forall (fun e => fst e < F)%nat ((i, z1) :: l)).
  { rewrite <- Hbp. apply (puts_at_fits F id2path). rewrite take_length. replace (S (Nat.min (length p - 1) (length p))) with (length p) by lia. exact Hf. }
  apply Forall_cons in Hfit as [Hi Hfit]. cbn in Hi.
  rewrite <- (drift_poly_eval F α0 l); [|intros j Hj; destruct (decide (i = j)) as [<-|Hne]; [done|rewrite lookup_singleton_ne in Hj by done; by destruct Hj]|exact Hfit].
  clear -Hz. induction Hz as [|c cs -> _ IH]; [done|]. cbn [peval]. rewrite IH. ring.
Qed.

(** A client whose liability was changed once, with no other client below the same vertex *)
Lemma sum_of_singleton F i z : (i < F)%nat -> sum_of F {[i := z]} = z.
Proof.
  intros Hi. unfold sum_of. rewrite (seq_split i F Hi), sumZ_app. cbn [sumZ foldr]. change (foldr _ 0%Z (seq (S i) (F - S i))) with (sumZ (fun j => default 0%Z (({[i := z]} : gmap nat Z) !! j)) (seq (S i) (F - S i))).
  rewrite lookup_singleton. rewrite !sumZ_zero; [cbn; lia|..]; intros j Hj%elem_of_seq; rewrite lookup_singleton_ne by lia; done.
Qed.
Lemma sum_of_pair F i j y z : (i < F)%nat -> (j < F)%nat -> i <> j -> sum_of F (<[j := z]> {[i := y]}) = (y + z)%Z.
Proof.
  intros Hi Hj Hij. transitivity (sum_of F {[i := y]} + sum_of F {[j := z]})%Z; [|rewrite !sum_of_singleton by done; done].
  unfold sum_of. clear Hi Hj. induction (seq 0 F) as [|x l IH]; [done|]. unfold sumZ in *. cbn [foldr]. rewrite IH.
  destruct (decide (x = j)) as [->|Hx]; [rewrite lookup_insert, lookup_singleton_ne, lookup_singleton by done; cbn; lia|]. rewrite lookup_insert_ne by done. rewrite (lookup_singleton_ne j x) by done.
  change (default 0%Z None) with 0%Z. lia.
Qed.
Lemma poly_coef_zero cs m c : Forall (fun c => c = 0) cs -> cs !! m = Some c -> c = 0.
Proof. intros H Hm. rewrite Forall_lookup in H. apply (H _ _ Hm). Qed.
Lemma monomial_at N m c : (m < N)%nat -> monomial N m c !! m = Some c.
Proof. intros H. unfold monomial. by rewrite list_lookup_insert by (rewrite replicate_length; lia). Qed.
Lemma monomial_off N m c j : (j < N)%nat -> m <> j -> monomial N m c !! j = Some 0.
Proof. intros H Hj. unfold monomial. by rewrite list_lookup_insert_ne, lookup_replicate_2 by done. Qed.
Theorem C87_changed_once (C : Curve) F id2path pathof h id p i z1 z2 αs :
  (2 <= F)%nat -> puts_at pathof (take (length p - 1) p) h = [(i, z1); (i, z2)] -> zr z1 <> zr z2 ->
  NoDup αs -> 0 ∉ αs -> (forall α, α ∈ αs -> convinced C F α id2path pathof h id p z2) -> (length αs <= F + 1)%nat.
Proof.
  intros HF Hbp Hz Hnd H0 Hall. destruct (decide (length αs <= F + 1)%nat) as [|Hgt]; [done|]. exfalso. apply Hz.
  pose proof (few_trapdoors C F id2path pathof h id p z2 i z1 [(i, z2)] αs Hbp Hnd H0 Hall ltac:(lia)) as Hpoly.
  destruct αs as [|α αs']; [cbn in Hgt; lia|]. destruct (Hall α ltac:(left)) as (pp & rnd & order & cs & ls & co & lp & V & W & Hs & Hh & _). destruct Hs as (Hn & _ & Hf & _). rewrite Hh in Hf.
  assert (Hi : (i < F)%nat).
  { assert (Hfit : Forall (fun e => fst e < F)%nat [(i, z1); (i, z2)]); [|by apply Forall_cons in Hfit as [Hi _]].
    rewrite <- Hbp. apply (puts_at_fits F id2path). rewrite take_length. replace (S (Nat.min (length p - 1) (length p))) with (length p) by lia. exact Hf. }
  assert (E : zr z1 - zr z2 = 0); [|by apply zsub_eq_0].
  apply (poly_coef_zero _ (F + 1) _ Hpoly). cbn [drift_poly]. cbv zeta. rewrite insert_singleton, map_size_singleton, !sum_of_singleton by done.
  unfold vadd. rewrite !lookup_zip_with. rewrite (monomial_off _ (1 + 1)) by lia. rewrite monomial_at by lia. rewrite lookup_replicate_2 by lia. cbn. f_equal. ring.
Qed.
(** Two clients below the same vertex, set once each: none of them is convinced. *)
Theorem C87_neighbour (C : Curve) F id2path pathof h id p z i j z1 z2 αs :
  (3 <= F)%nat -> puts_at pathof (take (length p - 1) p) h = [(i, z1); (j, z2)] -> i <> j -> zr z2 <> 0 ->
  NoDup αs -> 0 ∉ αs -> (forall α, α ∈ αs -> convinced C F α id2path pathof h id p z) -> (length αs <= F + 1)%nat.
Proof.
  intros HF Hbp Hij Hz Hnd H0 Hall. destruct (decide (length αs <= F + 1)%nat) as [|Hgt]; [done|]. exfalso. apply Hz.
  pose proof (few_trapdoors C F id2path pathof h id p z i z1 [(j, z2)] αs Hbp Hnd H0 Hall ltac:(lia)) as Hpoly.
  destruct αs as [|α αs']; [cbn in Hgt; lia|]. destruct (Hall α ltac:(left)) as (pp & rnd & order & cs & ls & co & lp & V & W & Hs & Hh & _). destruct Hs as (Hn & _ & Hf & _). rewrite Hh in Hf.
  assert (Hi : (i < F)%nat /\ (j < F)%nat).
  { assert (Hfit : Forall (fun e => fst e < F)%nat [(i, z1); (j, z2)]); [|by rewrite !Forall_cons in Hfit; destruct Hfit as (? & ? & _)].
    rewrite <- Hbp. apply (puts_at_fits F id2path). rewrite take_length. replace (S (Nat.min (length p - 1) (length p))) with (length p) by lia. exact Hf. }
  destruct Hi as [Hi Hj]. assert (Hsz : size (<[j := z2]> ({[i := z1]} : gmap nat Z)) = 2%nat) by (rewrite map_size_insert_None by (by apply lookup_singleton_ne); rewrite map_size_singleton; done).
  assert (E : zr z1 - zr (z1 + z2) = 0).
  { apply (poly_coef_zero _ (F + 1) _ Hpoly). cbn [drift_poly]. cbv zeta. rewrite Hsz, sum_of_singleton, sum_of_pair by done.
    unfold vadd. rewrite !lookup_zip_with. rewrite (monomial_off _ (2 + 1)) by lia. rewrite monomial_at by lia. rewrite lookup_replicate_2 by lia. cbn. f_equal. ring. }
  rewrite zr_add in E. transitivity (0 - (zr z1 - (zr z1 + zr z2))); [ring|rewrite E; ring].
Qed.

(** ** Examples *)
(** A set of liabilities with one id, set to z1 and then to zs in turn *)
Definition resets (id : string) (zs : list Z) : list call := CSet id <$> zs.
Lemma resets_run {C : Curve} F α n k (pp : PolPP C) rnd order id2path id p zs : params_ok F α n k pp -> (2 <= n)%nat -> (forall k b m, order k b m ≡ₚ map_to_list m) ->
  id2path id = Ret p -> length p = n -> Forall (fun i => i < F)%nat p -> Forall (fun z => 0 <= z < 2 ^ 63)%Z zs ->
  exists ls, set_run pp rnd order id2path (resets id zs) ls /\ fixed_paths F id2path (fun _ => p) n (sets (resets id zs)).
Proof.
  intros Hp Hn Ho Hid Hl HF Hz. pose proof (params_ok_tree _ _ _ _ _ Hp) as Ht.
  assert (Hf : forall zs, fixed_paths F id2path (fun _ => p) n (sets (resets id zs))).
  { clear zs Hz. intros zs. split; [destruct Hp as (E & Hk & _); assert (2 ^ k <= 2 ^ 15)%nat by (apply Nat.pow_le_mono_r; lia); change (2 ^ 15)%nat with (Z.to_nat 32768) in *; lia|].
    intros id0 z0 Hin. unfold resets in Hin. induction zs as [|z zs IH]; [by apply elem_of_nil in Hin|]. cbn in Hin. apply elem_of_cons in Hin as [[= -> ->]|Hin]; [done|by apply IH]. }
  induction zs as [|z zs IH] using rev_ind; [exists (NewLiabilitySet ∅); split; [split; [done|exists ∅; done]|apply Hf]|].
  apply Forall_app in Hz as [Hz Hz1]. apply Forall_cons in Hz1 as [Hz1 _]. destruct (IH Hz) as (ls0 & H0 & _). unfold resets in *. rewrite fmap_app. 
  destruct (C44_set_never_fails C F α pp rnd order id2path (fun _ => p) n (CSet id <$> zs) ls0 id z Ht) as [ls Hls]; [|exact H0|exact (proj1 Hz1)|].
  { specialize (Hf (zs ++ [z])). unfold resets in Hf. rewrite fmap_app in Hf. unfold sets in *. rewrite omap_app in Hf. exact Hf. }
  exists ls. split; [|rewrite <- fmap_app; apply Hf]. apply (set_run_app _ _ _ _ (CSet id <$> zs) [CSet id z] _ _ H0). cbn [do_calls do_call]. rewrite Hls. exact Logic.eq_refl.
Qed.
Lemma resets_state {C : Curve} F α n k (pp : PolPP C) rnd order id2path id p zs z ls : params_ok F α n k pp -> (2 <= n)%nat ->
  id2path id = Ret p -> length p = n -> Forall (fun i => i < F)%nat p -> (0 <= z < 2 ^ 63)%Z -> set_run pp rnd order id2path (resets id (zs ++ [z])) ls ->
  fixed_paths F id2path (fun _ => p) n (sets (resets id (zs ++ [z]))) ->
  recorded_state F α pp rnd order id2path (fun _ => p) (resets id (zs ++ [z])) ls id p z.
Proof.
  intros Hp Hn Hid Hl HF Hz H1 Hf. assert (Hs : sets (resets id (zs ++ [z])) = sets (resets id zs) ++ [(id, z)]) by (unfold resets, sets; rewrite fmap_app, omap_app; done).
  assert (HL : forall q, latest (fun _ => p) (sets (resets id (zs ++ [z]))) q = if decide (p = q) then Some z else None).
  { intros q. rewrite Hs, latest_snoc. destruct (decide (p = q)) as [|Hne]; [done|]. unfold resets. clear -Hne. induction zs as [|y zs IH] using rev_ind; [done|].
    unfold sets. rewrite fmap_app, omap_app. cbn [fmap list_fmap omap list_omap]. rewrite latest_snoc. rewrite decide_False by done. exact IH. }
  unfold recorded_state. rewrite Hl. split; [exact Hn|]. split; [by exists k|]. split; [exact Hf|]. split; [exact H1|]. split; [|split; [exact Hid|rewrite HL; by rewrite decide_True]].
  unfold total_of. rewrite (total_ext F n _ (fun q => if decide (p = q) then Some z else None)) by (intros q _; apply HL).
  rewrite <- Hl, (total_point F p (fun _ => None) z HF). rewrite total_empty by done. cbn. lia.
Qed.
Lemma resets_puts p i n zs id : p !! n = Some i -> length p = S n -> puts_at (fun _ => p) (take (length p - 1) p) (sets (resets id zs)) = (fun z => (i, z)) <$> zs.
Proof.
  intros Hi Hl. unfold resets. induction zs as [|z zs IH]; [done|]. cbn [fmap list_fmap]. rewrite <- IH. unfold puts_at. cbn [sets omap list_omap fst snd].
  replace (slot (take (length p - 1) p) p) with (Some i); [done|]. unfold slot. rewrite take_length. replace (Nat.min (length p - 1) (length p)) with n by lia. rewrite decide_True; [done|]. f_equal. lia.
Qed.
Lemma toy_recorded_exists F α (pp : PolPP toy) rnd order id2path pathof cs ls id p z : recorded_state F α pp rnd order id2path pathof cs ls id p z ->
  exists lp, ProveLiability pp id2path (ex_coins pp) ls id = Ret (Some (z, lp)).
Proof.
  intros Hh. destruct (C87_returned toy F α pp rnd order id2path pathof cs ls id p z (ex_coins pp) Hh (ex_coins_fit pp)) as (ws & rps & _ & _ & _ & _ & HPL).
  destruct HPL as (lp & HPL & _); [|exists lp; exact HPL].
  generalize (v_V <$> ws). induction rps as [|rp l IH]; intros [|V k']; [constructor..|]. cbn [zip_with concat]. apply Forall_app. split; [apply toy_range_challenges|apply IH].
Qed.
(** Fanout 7, with ids of digits *)
Lemma toy_resets α id p zs z : digit_path 7 id = Ret p -> length p = 11%nat -> Forall (fun i => i < 7)%nat p -> Forall (fun z => 0 <= z < 2 ^ 63)%Z (zs ++ [z]) ->
  exists (pp : PolPP toy) g ls lp, GeneratePublicParams 7 Dense α = Ret (g, pp) /\ (forall fuel, g fuel = digit_path 7) /\
  recorded_state 7 α pp ex_rnd ex_order (digit_path 7) (fun _ => p) (resets id (zs ++ [z])) ls id p z /\ coins_fit pp (ex_coins pp) /\
  ProveLiability pp (digit_path 7) (ex_coins pp) ls id = Ret (Some (z, lp)).
Proof.
  intros Hid Hl HF Hz. assert (Hsup : supported 7 Dense) by (exists 3%Z; done).
  destruct (generate_spec (C:=toy) 7 Dense α Hsup) as (n & g & pp & k & HG & Hfl & _ & Hp & (h & Hh & Hg) & _).
  rewrite (DigitPath_pow2 3 ltac:(lia) : DigitPath 7 = Ret (digit_path 7)) in Hh. injection Hh as <-.
  assert (n = 11%nat) as -> by (assert (E : full_path_length 7 Dense 11) by done; unfold full_path_length in Hfl, E; congruence).
  change (Z.to_nat 7) with 7%nat in Hp.
  destruct (resets_run 7 α 11 k pp ex_rnd ex_order (digit_path 7) id p (zs ++ [z]) Hp ltac:(lia) ex_order_perm Hid Hl HF Hz) as (ls & Hr & Hf).
  assert (Hz1 : (0 <= z < 2 ^ 63)%Z) by (apply Forall_app in Hz as [_ Hz]; by apply Forall_cons in Hz as [Hz _]).
  pose proof (resets_state 7 α 11 k pp ex_rnd ex_order (digit_path 7) id p zs z ls Hp ltac:(lia) Hid Hl HF Hz1 Hr Hf) as Hs.
  destruct (toy_recorded_exists _ _ _ _ _ _ _ _ _ _ _ _ Hs) as [lp HPL]. exists pp, g, ls, lp.
  split; [exact HG|]. split; [intros fuel; by rewrite Hg|]. split; [exact Hs|]. split; [apply ex_coins_fit|exact HPL].
Qed.
(** An id set to 5 and then to 6: the proof of 6 is returned, and rejected. *)
Example C87_nonvacuous : exists (pp : PolPP toy) g ls lp, GeneratePublicParams 7 Dense (zr 5) = Ret (g, pp) /\ (forall fuel, g fuel = digit_path 7) /\
  recorded_state 7 (zr 5) pp ex_rnd ex_order (digit_path 7) (fun _ => ex_dense_p1) (resets "123456789" [5; 6]%Z) ls "123456789" ex_dense_p1 6 /\
  coins_fit pp (ex_coins pp) /\ bottom_puts (fun _ => ex_dense_p1) (resets "123456789" [5; 6]%Z) ex_dense_p1 0 5 [(0%nat, 6%Z)] /\
  ProveLiability pp (digit_path 7) (ex_coins pp) ls "123456789" = Ret (Some (6%Z, lp)) /\ drift 7 (zr 5) {[0%nat := 5%Z]} [(0%nat, 6%Z)] <> 0 /\
  forall V W, exists s, LiabilityProof_Verify lp pp "123456789" V W (digit_path 7) = Ret (Err s).
Proof.
  destruct (toy_resets (zr 5) "123456789" ex_dense_p1 [5]%Z 6%Z ex_dense_path1 eq_refl) as (pp & g & ls & lp & HG & Hg & Hs & Hco & HPL).
  { unfold ex_dense_p1. repeat (apply Forall_cons; split; [lia|]). constructor. } { repeat (apply Forall_cons; split; [lia|]). constructor. }
  assert (Hbp : bottom_puts (fun _ => ex_dense_p1) (resets "123456789" [5; 6]%Z) ex_dense_p1 0 5 [(0%nat, 6%Z)]) by (apply (resets_puts ex_dense_p1 0 10 [5; 6]%Z); done).
  assert (Hd : drift 7 (zr 5) {[0%nat := 5%Z]} [(0%nat, 6%Z)] <> 0).
  { cbn [drift]. unfold drift_of. cbv zeta. rewrite insert_singleton, map_size_singleton, !sum_of_singleton by lia. rewrite lookup_singleton_ne by done. intros E. apply (f_equal zv) in E. vm_compute in E. discriminate E. }
  exists pp, g, ls, lp. split; [exact HG|]. split; [exact Hg|]. split; [exact Hs|]. split; [exact Hco|]. split; [exact Hbp|]. split; [exact HPL|]. split; [exact Hd|].
  assert (Hα : zr 5 <> 0) by (intros E; apply (f_equal zv) in E; vm_compute in E; discriminate E).
  destruct (C87_verdict toy 7 (zr 5) pp ex_rnd ex_order (digit_path 7) (fun _ => ex_dense_p1) (resets "123456789" [5; 6]%Z) ls "123456789" ex_dense_p1 6 (ex_coins pp) 6 lp 0 5 [(0%nat, 6%Z)] Hs Hα Hco Hbp HPL) as (_ & _ & _ & H). exact (H Hd).
Qed.
(** An id below child 1, set to 5, to 6 and to 5 again: the two updates cancel out, whatever the trapdoor, and the proof is accepted. *)
Lemma drift_back F α i a b : (1 <= F)%nat -> (i < F)%nat -> i = 1%nat -> drift F α {[i := a]} [(i, b); (i, a)] = 0.
Proof.
  intros HF Hi ->. cbn [drift]. unfold drift_of. cbv zeta. rewrite !insert_singleton, !map_size_singleton, !sum_of_singleton, !lookup_singleton by done. change (default 0%Z (Some ?x)) with x. cbn [default from_option]. unfold default. cbn. ring.
Qed.
Example C87_back_nonvacuous : exists id p (pp : PolPP toy) g ls lp V W, GeneratePublicParams 7 Dense (zr 5) = Ret (g, pp) /\ (forall fuel, g fuel = digit_path 7) /\
  recorded_state 7 (zr 5) pp ex_rnd ex_order (digit_path 7) (fun _ => p) (resets id [5; 6; 5]%Z) ls id p 5 /\ bottom_puts (fun _ => p) (resets id [5; 6; 5]%Z) p 1 5 [(1%nat, 6%Z); (1%nat, 5%Z)] /\
  ProveLiability pp (digit_path 7) (ex_coins pp) ls id = Ret (Some (5%Z, lp)) /\ drift 7 (zr 5) {[1%nat := 5%Z]} [(1%nat, 6%Z); (1%nat, 5%Z)] = 0 /\
  current_root ls V (Some W) /\ LiabilityProof_Verify lp pp id V W (digit_path 7) = Ret nil_error.
Proof.
  assert (Hp : digit_path 7 "282475250" = Ret [1;0;0;0;0;0;0;0;0;0;1]%nat) by (vm_compute; reflexivity). set (p := [1;0;0;0;0;0;0;0;0;0;1]%nat) in *.
  destruct (toy_resets (zr 5) "282475250" p [5; 6]%Z 5%Z Hp eq_refl) as (pp & g & ls & lp & HG & Hg & Hs & Hco & HPL).
  { unfold p. repeat (apply Forall_cons; split; [lia|]). constructor. } { repeat (apply Forall_cons; split; [lia|]). constructor. }
  assert (Hbp : bottom_puts (fun _ => p) (resets "282475250" [5; 6; 5]%Z) p 1 5 [(1%nat, 6%Z); (1%nat, 5%Z)]) by (apply (resets_puts p 1 10 [5; 6; 5]%Z); done).
  pose proof (drift_back 7 (zr 5) 1 5 6 ltac:(lia) ltac:(lia) eq_refl) as Hd.
  assert (Hα : zr 5 <> 0) by (intros E; apply (f_equal zv) in E; vm_compute in E; discriminate E).
  destruct (C87_verdict toy 7 (zr 5) pp ex_rnd ex_order (digit_path 7) (fun _ => p) (resets "282475250" [5; 6; 5]%Z) ls "282475250" p 5 (ex_coins pp) 5 lp 1 5 [(1%nat, 6%Z); (1%nat, 5%Z)] Hs Hα Hco Hbp HPL) as (_ & _ & H & _).
  destruct (H Hd) as (V & W & HR & HV). exists "282475250"%string, p, pp, g, ls, lp, V, W.
  split; [exact HG|]. split; [exact Hg|]. split; [exact Hs|]. split; [exact Hbp|]. split; [exact HPL|]. split; [exact Hd|]. split; [exact HR|]. apply HV, toy_proof_challenges.
Qed.

(** With the trapdoor 1, an id set to 0 and then to 6 *)
Lemma toy_convinced α pp ls lp id p cs z pathof i z1 l : recorded_state (C:=toy) 7 α pp ex_rnd ex_order (digit_path 7) pathof cs ls id p z -> α <> 0 -> bottom_puts pathof cs p i z1 l -> drift 7 α {[i := z1]} l = 0 ->
  ProveLiability pp (digit_path 7) (ex_coins pp) ls id = Ret (Some (z, lp)) -> convinced toy 7 α (digit_path 7) pathof (sets cs) id p z.
Proof.
  intros Hs Hα Hbp Hd HPL. destruct (C87_verdict toy 7 α pp ex_rnd ex_order (digit_path 7) pathof cs ls id p z (ex_coins pp) z lp i z1 l Hs Hα (ex_coins_fit pp) Hbp HPL) as (_ & _ & H & _).
  destruct (H Hd) as (V & W & HR & HV). exists pp, ex_rnd, ex_order, cs, ls, (ex_coins pp), lp, V, W. split; [exact Hs|]. split; [reflexivity|]. split; [apply ex_coins_fit|]. split; [exact HPL|]. apply HV, toy_proof_challenges.
Qed.
Lemma one_neq_0 : (1 : Zr) <> 0.
Proof. intros E. apply (f_equal zv) in E. vm_compute in E. discriminate E. Qed.
Example C87_changed_once_nonvacuous : puts_at (fun _ => ex_dense_p1) (take (length ex_dense_p1 - 1) ex_dense_p1) (sets (resets "123456789" [0; 6]%Z)) = [(0%nat, 0%Z); (0%nat, 6%Z)] /\
  zr 0 <> zr 6 /\ NoDup [1 : Zr] /\ 0 ∉ [1 : Zr] /\ (forall α, α ∈ [1 : Zr] -> convinced toy 7 α (digit_path 7) (fun _ => ex_dense_p1) (sets (resets "123456789" [0; 6]%Z)) "123456789" ex_dense_p1 6).
Proof.
  assert (Hbp : bottom_puts (fun _ => ex_dense_p1) (resets "123456789" [0; 6]%Z) ex_dense_p1 0 0 [(0%nat, 6%Z)]) by (apply (resets_puts ex_dense_p1 0 10 [0; 6]%Z); done).
  split; [exact Hbp|]. split; [intros E; apply (f_equal zv) in E; vm_compute in E; discriminate E|]. split; [apply NoDup_singleton|].
  split; [intros E%elem_of_list_singleton; by apply one_neq_0|]. intros α ->%elem_of_list_singleton.
  destruct (toy_resets 1 "123456789" ex_dense_p1 [0]%Z 6%Z ex_dense_path1 eq_refl) as (pp & g & ls & lp & _ & _ & Hs & _ & HPL).
  { unfold ex_dense_p1. repeat (apply Forall_cons; split; [lia|]). constructor. } { repeat (apply Forall_cons; split; [lia|]). constructor. }
  apply (toy_convinced 1 pp ls lp _ _ _ _ _ 0 0 [(0%nat, 6%Z)] Hs one_neq_0 Hbp); [|exact HPL].
  cbn [drift]. unfold drift_of. cbv zeta. rewrite insert_singleton, map_size_singleton, !sum_of_singleton by lia. rewrite lookup_singleton_ne by done. apply Zr_eq. vm_compute. reflexivity.
Qed.
(** With the trapdoor 1, two ids below the same vertex, set to 0 and to 6 *)
Definition ex_near_p : path := [1;2;2;6;3;2;6;2;0;3;1]%nat.
Definition ex_near_paths (id : string) : path := if decide (id = "123456789"%string) then ex_dense_p1 else ex_near_p.
Definition ex_near : list call := [CSet "123456789" 0; CSet "405932038" 6].
Lemma ex_near_path : digit_path 7 "405932038" = Ret ex_near_p. Proof. vm_compute. reflexivity. Qed.
Lemma ex_near_fixed h : h = [("123456789"%string, 0%Z)] \/ h = [("123456789"%string, 0%Z); ("405932038"%string, 6%Z)] -> fixed_paths 7 (digit_path 7) ex_near_paths 11 h.
Proof.
  intros Hh. split; [lia|]. intros id z Hin.
  assert (Hid : id = "123456789"%string \/ id = "405932038"%string) by (destruct Hh as [-> | ->]; repeat (apply elem_of_cons in Hin as [[= -> ->]|Hin]; [auto|]); by apply elem_of_nil in Hin).
  destruct Hid as [-> | ->].
  - split; [exact ex_dense_path1|]. split; [reflexivity|]. unfold ex_near_paths. rewrite decide_True by done. unfold ex_dense_p1. repeat (apply Forall_cons; split; [lia|]). constructor.
  - split; [exact ex_near_path|]. split; [reflexivity|]. unfold ex_near_paths. rewrite decide_False by done. unfold ex_near_p. repeat (apply Forall_cons; split; [lia|]). constructor.
Qed.
Lemma ex_near_total : total_of 7 11 ex_near_paths ex_near = 6%Z.
Proof.
  unfold total_of. change (sets ex_near) with (([] ++ [("123456789"%string, 0%Z)]) ++ [("405932038"%string, 6%Z)]).
  rewrite (total_ext 7 11 _ (fun q => if decide (ex_near_p = q) then Some 6%Z else if decide (ex_dense_p1 = q) then Some 0%Z else None)).
  - change 11%nat with (length ex_near_p) at 1. rewrite total_point by (unfold ex_near_p; repeat (apply Forall_cons; split; [lia|]); constructor).
    change (length ex_near_p) with (length ex_dense_p1). rewrite (total_point 7 ex_dense_p1 (fun _ => None)) by (unfold ex_dense_p1; repeat (apply Forall_cons; split; [lia|]); constructor).
    rewrite total_empty by done. rewrite decide_False by done. done.
  - intros q _. rewrite !latest_snoc. done.
Qed.
Lemma ex_near_state : exists (pp : PolPP toy) ls, recorded_state 7 1 pp ex_rnd ex_order (digit_path 7) ex_near_paths ex_near ls "405932038" ex_near_p 6.
Proof.
  assert (Hsup : supported 7 Dense) by (exists 3%Z; done).
  destruct (generate_spec (C:=toy) 7 Dense 1 Hsup) as (n & g & pp & k & HG & Hfl & _ & Hp & _).
  assert (n = 11%nat) as -> by (assert (E : full_path_length 7 Dense 11) by done; unfold full_path_length in Hfl, E; congruence).
  change (Z.to_nat 7) with 7%nat in Hp. pose proof (params_ok_tree _ _ _ _ _ Hp) as Ht.
  assert (H0 : set_run pp ex_rnd ex_order (digit_path 7) [] (NewLiabilitySet ∅)) by (split; [apply ex_order_perm|exists ∅; done]).
  destruct (C44_set_never_fails toy 7 1 pp ex_rnd ex_order (digit_path 7) ex_near_paths 11 [] (NewLiabilitySet ∅) "123456789" 0 Ht) as [ls1 Hls1]; [apply ex_near_fixed; auto|exact H0|done|].
  assert (H1 : set_run pp ex_rnd ex_order (digit_path 7) [CSet "123456789" 0] ls1) by (apply (set_run_app _ _ _ _ [] _ _ _ H0); cbn [do_calls do_call]; rewrite Hls1; exact Logic.eq_refl).
  destruct (C44_set_never_fails toy 7 1 pp ex_rnd ex_order (digit_path 7) ex_near_paths 11 [CSet "123456789" 0] ls1 "405932038" 6 Ht) as [ls Hls]; [apply ex_near_fixed; auto|exact H1|done|].
  assert (H2 : set_run pp ex_rnd ex_order (digit_path 7) ex_near ls) by (apply (set_run_app _ _ _ _ [CSet "123456789" 0] [CSet "405932038" 6] _ _ H1); cbn [do_calls do_call]; rewrite Hls; exact Logic.eq_refl).
  exists pp, ls. unfold recorded_state. change (length ex_near_p) with 11%nat. split; [lia|]. split; [by exists k|]. split; [apply ex_near_fixed; auto|]. split; [exact H2|]. split; [rewrite ex_near_total; lia|].
  split; [exact ex_near_path|]. vm_compute. reflexivity.
Qed.
Example C87_neighbour_nonvacuous : puts_at ex_near_paths (take (length ex_near_p - 1) ex_near_p) (sets ex_near) = [(0%nat, 0%Z); (1%nat, 6%Z)] /\
  zr 6 <> 0 /\ NoDup [1 : Zr] /\ 0 ∉ [1 : Zr] /\ (forall α, α ∈ [1 : Zr] -> convinced toy 7 α (digit_path 7) ex_near_paths (sets ex_near) "405932038" ex_near_p 6).
Proof.
  assert (Hbp : bottom_puts ex_near_paths ex_near ex_near_p 0 0 [(1%nat, 6%Z)]) by (vm_compute; reflexivity).
  split; [exact Hbp|]. split; [intros E; apply (f_equal zv) in E; vm_compute in E; discriminate E|]. split; [apply NoDup_singleton|].
  split; [intros E%elem_of_list_singleton; by apply one_neq_0|]. intros α ->%elem_of_list_singleton.
  destruct ex_near_state as (pp & ls & Hs). destruct (toy_recorded_exists _ _ _ _ _ _ _ _ _ _ _ _ Hs) as [lp HPL].
  apply (toy_convinced 1 pp ls lp _ _ _ _ _ 0 0 [(1%nat, 6%Z)] Hs one_neq_0 Hbp); [|exact HPL].
  cbn [drift]. unfold drift_of. cbv zeta. apply Zr_eq. vm_compute. reflexivity.
Qed.
Print Assumptions C87_returned.
Print Assumptions C87_verdict.
Print Assumptions C87_outcome.
Print Assumptions C87_few_trapdoors.
Print Assumptions C87_changed_once.
Print Assumptions C87_neighbour.
