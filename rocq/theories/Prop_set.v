(** Properties C44, C50-C52, C54, C60, C62: the liability set under arbitrary sequences of calls.

    Specification.  [set_run pp rnd order id2path cs ls]: a liability set opened on some database is in state ls after the
    calls cs (Set, Get, Root, ProveTot, ProveLiability), all of which returned; [sets cs] is the list of the Sets among
    them.  [latest pathof h p] is the last value set under path p, [total_of F n pathof cs] the sum of these values over
    all paths of length n.  [tree_params F α pp]: the fanout is F and the point-proof parameters have size F + 2 and
    trapdoor α (which GeneratePublicParams ensures, C61).  [fixed_paths] (Prop_verkle.v): the ids have paths of one length
    n with entries below F. *)
From Verif Require Import Prop_range Prop_params Extract Toy Pol_run.
Local Open Scope Zr_scope.

(** The commitments of the root vertex now in the database *)
Definition current_root {C : Curve} (ls : LSet) (V : G1 C) (W : option (G1 C)) : Prop :=
  exists w : Vertex C, stored (vs_db (vt_state (ls_tree ls))) "" w /\ v_V w = V /\ v_W w = W.

Lemma pow63_r : (2 ^ 63 < r)%Z. Proof. reflexivity. Qed.
Lemma pow64_r : (2 ^ 64 < r)%Z. Proof. reflexivity. Qed.

(** ** C44 *)
Theorem C44_get (C : Curve) F α (pp : PolPP C) rnd order id2path pathof n cs ls id p :
  tree_params F α pp -> fixed_paths F id2path pathof n (sets cs) -> set_run pp rnd order id2path cs ls ->
  id2path id = Ret p -> length p = n ->
  LS_Get (C:=C) id2path ls id = Ret (latest pathof (sets cs) p).
Proof.
  intros Hp [HF Hg] Hr Hid Hl. destruct (set_run_verkle F α _ _ _ _ _ _ Hp HF Hr) as [[Ho [db0 Ht]] _].
  pose proof (verkle_get F α rnd order id2path pathof HF Ho n (sets cs) db0 _ id p Hg Ht Hid Hl) as H. unfold LS_Get.
  destruct (latest pathof (sets cs) p) as [z|]; [destruct H as (ws & -> & _)|rewrite H]; done.
Qed.
Theorem C44_set_never_fails (C : Curve) F α (pp : PolPP C) rnd order id2path pathof n cs ls id z :
  tree_params F α pp -> fixed_paths F id2path pathof n (sets cs ++ [(id, z)]) -> set_run pp rnd order id2path cs ls -> (0 <= z)%Z ->
  exists ls', LS_Set pp rnd order id2path ls id z = Ret ls'.
Proof.
  intros Hp [HF Hg] Hr Hz. destruct (set_run_verkle F α _ _ _ _ _ _ Hp HF Hr) as [[Ho [db0 Ht]] _].
  destruct (verkle_history (C:=C) F α rnd order id2path pathof HF Ho n _ db0 Hg) as (t & H & _). rewrite VPuts_app, Ht in H. cbn [rbind VPuts] in H.
  apply rbind_inv in H as (t1 & H & E). unfold LS_Set. destruct (Z.ltb_spec z 0); [lia|]. rewrite (ls_fanout_eq F α pp Hp HF), (proj2 Hp), H. cbn [rbind]. eauto.
Qed.
Theorem C44_negative_panics (C : Curve) (pp : PolPP C) rnd order id2path ls id z : (z < 0)%Z -> LS_Set pp rnd order id2path ls id z = Panic.
Proof. intros Hz. unfold LS_Set. rewrite (proj2 (Z.ltb_lt _ _) Hz). done. Qed.

(** ** C50 *)
Lemma prove_tot_spec {C : Curve} F α (pp : PolPP C) ls (w : Vertex C) : tree_params F α pp -> stored (vs_db (vt_state (ls_tree ls))) "" w ->
  exists π, Open (NewPublicParams (F + 2) α) F (values_vec F w) = Ret (v_sum w, π) /\
    ProveTot pp ls = match Zr_Int (v_sum w) with None => Panic | Some s => Ret (MkTP π s) end.
Proof.
  intros Hp (bs & Hb & _ & Hw). destruct (C07_honest_openings_verify C (F + 2) α (values_vec F w) F) as (cm & mi & π & _ & Ho & Hm & _); [lia|apply values_vec_length|lia|].
  rewrite values_vec_sum in Hm. injection Hm as <-. exists π. split; [done|].
  unfold ProveTot, db_get. rewrite Hb, Hw. cbn [rbind]. unfold openSumFromVertex. rewrite (vertex_vec_eq F α pp w Hp), values_vec_length, (proj2 Hp).
  replace (F + 2 - 2)%nat with F by lia. rewrite Ho. done.
Qed.
Lemma open_verifies {C : Curve} F α (w : Vertex C) i : (i < F + 2)%nat -> Commit (NewPublicParams (F + 2) α) (values_vec F w) = Ret (v_V w) ->
  forall mi π, Open (NewPublicParams (F + 2) α) i (values_vec F w) = Ret (mi, π) -> Verify (NewPublicParams (F + 2) α) mi π (v_V w) i = Ret nil_error.
Proof.
  intros Hi Hc mi π Ho. destruct (C07_honest_openings_verify C (F + 2) α (values_vec F w) i) as (cm & mi' & π' & Hc' & Ho' & _ & Hv); [lia|apply values_vec_length|done|].
  rewrite Hc in Hc'. injection Hc' as <-. rewrite Ho in Ho'. injection Ho' as <- <-. done.
Qed.
Theorem C50_total_proof_complete (C : Curve) F α (pp : PolPP C) rnd order id2path pathof n cs ls :
  tree_params F α pp -> fixed_paths F id2path pathof n (sets cs) -> (2 <= n)%nat -> set_run pp rnd order id2path cs ls -> sets cs <> [] ->
  (total_of F n pathof cs < 2 ^ 63)%Z ->
  exists tp V W, ProveTot pp ls = Ret tp /\ tp_Sum tp = total_of F n pathof cs /\ current_root ls V W /\ TotalProof_Verify tp pp V = Ret nil_error.
Proof.
  intros Hp Hf Hn Hr Hne Hlt. destruct (root_vertex F α pp rnd order id2path pathof n cs ls Hp Hf ltac:(lia) Hr Hne) as (root & w & _ & _ & Hw & Hs & _ & Hc).
  destruct (Hc Hn) as [Hc' _]. destruct (prove_tot_spec F α pp ls w Hp Hw) as (π & Ho & Ht).
  assert (Hnn : (0 <= total_of F n pathof cs)%Z) by (apply total_of_nonneg, (set_run_verkle F α _ _ _ _ _ _ Hp (proj1 Hf) Hr)). pose proof pow63_r as Hr63.
  unfold Zr_Int in Ht. rewrite Hs, zv_zr_small in Ht by lia. rewrite (proj2 (Z.ltb_lt _ _) Hlt) in Ht.
  eexists _, (v_V w), (v_W w). split; [exact Ht|]. split; [done|]. split; [by exists w|]. unfold TotalProof_Verify. cbn [tp_Sum tp_proof]. unfold IntToZr. rewrite <- Hs, (proj1 Hp), (proj2 Hp).
  apply (open_verifies F α w F); [lia|done..].
Qed.

(** ** C51 *)
Theorem C51_total_binding (C : Curve) F α (pp : PolPP C) rnd order id2path pathof n cs ls V W tp :
  tree_params F α pp -> fixed_paths F id2path pathof n (sets cs) -> (2 <= n)%nat -> set_run pp rnd order id2path cs ls -> sets cs <> [] ->
  (total_of F n pathof cs < 2 ^ 63)%Z -> current_root ls V W ->
  TotalProof_Verify tp pp V = Ret nil_error ->
  exists honest, ProveTot pp ls = Ret honest /\
    let d := zr (total_of F n pathof cs) - zr (tp_Sum tp) in
    gadd (tp_proof tp) (gopp (tp_proof honest)) = gmul d (withheld C (F + 2) α) /\
    ((- 2 ^ 63 <= tp_Sum tp < 2 ^ 63)%Z -> tp_Sum tp <> total_of F n pathof cs ->
      d <> 0 /\ withheld C (F + 2) α = gmul (zinv d) (gadd (tp_proof tp) (gopp (tp_proof honest)))).
Proof.
  intros Hp Hf Hn Hr Hne Hlt Hroot Hv. destruct (C50_total_proof_complete C F α pp rnd order id2path pathof n cs ls Hp Hf Hn Hr Hne Hlt) as (tp0 & V0 & W0 & H1 & H2 & H3 & H4).
  exists tp0. split; [done|]. cbv zeta.
  assert (V0 = V) as -> by (destruct H3 as (w0 & Hw0 & <- & _), Hroot as (w & Hw & <- & _); rewrite (stored_fun _ _ _ _ Hw Hw0); done).
  unfold TotalProof_Verify in *. rewrite (proj1 Hp), (proj2 Hp) in *.
  destruct (C08_position_binding C (F + 2) α _ _ _ _ V F ltac:(lia) Hv H4) as [E1 E2]. unfold IntToZr in *. rewrite H2 in *. split; [done|].
  intros Hb Hneq. assert (Hd : zr (tp_Sum tp) <> zr (total_of F n pathof cs)).
  { intros E. apply Hneq. assert (0 <= total_of F n pathof cs)%Z by (apply total_of_nonneg, (set_run_verkle F α _ _ _ _ _ _ Hp (proj1 Hf) Hr)).
    apply (f_equal zv) in E. rewrite !zv_zr in E. pose proof pow64_r as H64.
    assert (H64' : (2 ^ 63 + 2 ^ 63 < r)%Z) by (change (2 ^ 63 + 2 ^ 63)%Z with (2 ^ 64)%Z; done). clear H64. revert E H64' Hb Hlt H. generalize (2 ^ 63)%Z, r, (total_of F n pathof cs), (tp_Sum tp).
    intros m R T s E HR Hs HT HT0. destruct (Z_lt_le_dec s 0).
    - rewrite <- (Z_mod_plus_full s 1), !Z.mod_small in E by lia. lia.
    - rewrite !Z.mod_small in E by lia. done. }
  split; [|by apply E2]. intros E. apply zsub_eq_0 in E. done.
Qed.

(** ** C52 *)
Lemma do_calls_root {C : Curve} (pp : PolPP C) rnd order id2path cs : CRoot ∉ cs -> forall ls ls', do_calls pp rnd order id2path ls cs = Ret ls' -> ls_root ls' = ls_root ls.
Proof.
  induction cs as [|c cs IH]; intros Hc ls ls' H; [cbn in H; by injection H as <-|]. apply not_elem_of_cons in Hc as [Hc0 Hc]. cbn [do_calls] in H.
  apply rbind_inv in H as (ls1 & H1 & H). rewrite (IH Hc _ _ H). destruct c as [id z|id| | |co id]; cbn [do_call] in H1.
  - unfold LS_Set in H1. destruct (z <? 0)%Z; [done|]. apply rbind_inv in H1 as (t & _ & E). by injection E as <-.
  - apply rbind_inv in H1 as (g & _ & E). by injection E as <-.
  - done.
  - apply rbind_inv in H1 as (g & _ & E). by injection E as <-.
  - apply rbind_inv in H1 as (g & _ & E). by injection E as <-.
Qed.
(** The first call returns the current commitments. *)
Theorem C52_first_call (C : Curve) F α (pp : PolPP C) rnd order id2path pathof n cs ls :
  tree_params F α pp -> fixed_paths F id2path pathof n (sets cs) -> (1 <= n)%nat -> set_run pp rnd order id2path cs ls -> sets cs <> [] ->
  CRoot ∉ cs ->
  exists ls' V W, Root (C:=C) ls = Ret (ls', Some (V, W)) /\ current_root ls V W.
Proof.
  intros Hp Hf Hn Hr Hne Hc. destruct (root_vertex F α pp rnd order id2path pathof n cs ls Hp Hf Hn Hr Hne) as (root & w & H1 & H2 & Hw & _).
  pose proof Hw as (bs & Hb & _ & Hd). assert (Hm : ls_root ls = []) by (destruct Hr as [_ [db0 Hr]]; rewrite (do_calls_root _ _ _ _ _ Hc _ _ Hr); done).
  unfold Root. rewrite H1, H2. unfold memo_Get. rewrite Hm. cbn [String.length length Nat.eqb negb andb]. unfold db_get. rewrite Hb, Hd. cbn [rbind].
  eexists _, _, _. split; [reflexivity|]. by exists w.
Qed.
(** Memorized: Root looks at nothing else. *)
Definition memorized {C : Curve} (ls : LSet) (V : G1 C) (W : option (G1 C)) : Prop :=
  exists w : Vertex C, ls_root ls <> [] /\ FromBytes (ls_root ls) = Ret w /\ v_V w = V /\ v_W w = W.
Lemma FromBytes_nil {C : Curve} : FromBytes (C:=C) [] = Panic.
Proof. reflexivity. Qed.
Lemma root_data {C : Curve} F α (pp : PolPP C) rnd order id2path pathof n cs ls : tree_params F α pp -> fixed_paths F id2path pathof n (sets cs) -> (1 <= n)%nat -> set_run pp rnd order id2path cs ls ->
  vt_tree (ls_tree ls) = None /\ sets cs = [] \/ sets cs <> [] /\ exists root, vt_tree (ls_tree ls) = Some root /\ vdata root = Some (DKey "").
Proof.
  intros Hp Hf Hn Hr. destruct (decide (sets cs = [])) as [E|E].
  - left. split; [|done]. destruct (set_run_verkle F α _ _ _ _ _ _ Hp (proj1 Hf) Hr) as [[Ho [db0 Ht]] _]. rewrite E in Ht. cbn in Ht. injection Ht as <-. done.
  - right. split; [done|]. destruct (root_vertex F α pp rnd order id2path pathof n cs ls Hp Hf Hn Hr E) as (root & w & H1 & H2 & _). eauto.
Qed.
Lemma Root_memorizes {C : Curve} (ls ls' : LSet) root V W : vt_tree (ls_tree ls) = Some root -> vdata root = Some (DKey "") -> Root (C:=C) ls = Ret (ls', Some (V, W)) -> memorized ls' V W.
Proof.
  intros H1 H2 H. unfold Root in H. rewrite H1, H2 in H. unfold memo_Get in H. cbn [String.length Nat.eqb andb] in H.
  destruct (ls_root ls) as [|b bs] eqn:E; cbn [length Nat.eqb negb] in H.
  - apply rbind_inv in H as (w & Hw & H). injection H as <- <- <-. exists w. cbn [ls_root]. split; [|done]. intros E'. rewrite E', FromBytes_nil in Hw. done.
  - apply rbind_inv in H as (w & Hw & H). injection H as <- <- <-. exists w. rewrite E. done.
Qed.
Lemma Root_memorized {C : Curve} (ls : LSet) root V W : vt_tree (ls_tree ls) = Some root -> vdata root = Some (DKey "") -> memorized (C:=C) ls V W -> Root (C:=C) ls = Ret (ls, Some (V, W)).
Proof.
  intros H1 H2 (w & Hne & Hw & <- & <-). unfold Root. rewrite H1, H2. unfold memo_Get. cbn [String.length Nat.eqb andb].
  destruct (ls_root ls) as [|b bs] eqn:E; [done|]. cbn [length Nat.eqb negb]. rewrite Hw. done.
Qed.
Lemma set_run_app {C : Curve} (pp : PolPP C) rnd order id2path cs cs' ls ls' :
  set_run pp rnd order id2path cs ls -> do_calls pp rnd order id2path ls cs' = Ret ls' -> set_run pp rnd order id2path (cs ++ cs') ls'.
Proof. intros [Ho [db0 H]] H'. split; [done|]. exists db0. rewrite do_calls_app, H. done. Qed.
Lemma do_calls_memorized {C : Curve} F α (pp : PolPP C) rnd order id2path pathof n cs2 V W :
  tree_params F α pp -> (1 <= n)%nat -> forall cs1 ls1 ls2, fixed_paths F id2path pathof n (sets (cs1 ++ cs2)) -> set_run pp rnd order id2path cs1 ls1 -> sets cs1 <> [] ->
  memorized ls1 V W -> do_calls pp rnd order id2path ls1 cs2 = Ret ls2 -> memorized (C:=C) ls2 V W.
Proof.
  intros Hp Hn. induction cs2 as [|c cs2 IH]; intros cs1 ls1 ls2 Hf Hr Hne Hm H; [cbn in H; by injection H as <-|].
  cbn [do_calls] in H. apply rbind_inv in H as (ls & Hc & H).
  assert (Hr' : set_run pp rnd order id2path (cs1 ++ [c]) ls) by (apply (set_run_app _ _ _ _ _ _ ls1); [done|cbn; rewrite Hc; done]).
  apply (IH (cs1 ++ [c]) ls); [rewrite <- app_assoc; done|done| | |done].
  - rewrite sets_app. destruct (sets cs1); done.
  - assert (Hf1 : fixed_paths F id2path pathof n (sets cs1)).
    { destruct Hf as [HF Hg]. split; [done|]. intros id z Hin. apply (Hg id z). rewrite sets_app. apply elem_of_app. by left. }
    destruct (root_data F α pp rnd order id2path pathof n cs1 ls1 Hp Hf1 Hn Hr) as [[_ E]|(_ & root & R1 & R2)]; [done|].
    destruct c as [id z|id| | |co id]; cbn [do_call] in Hc.
    + unfold LS_Set in Hc. destruct (z <? 0)%Z; [done|]. apply rbind_inv in Hc as (t & _ & E). by injection E as <-.
    + apply rbind_inv in Hc as (g & _ & E). by injection E as <-.
    + rewrite (Root_memorized ls1 root V W R1 R2 Hm) in Hc. cbn in Hc. by injection Hc as <-.
    + apply rbind_inv in Hc as (g & _ & E). by injection E as <-.
    + apply rbind_inv in Hc as (g & _ & E). by injection E as <-.
Qed.
Lemma fixed_paths_app F id2path pathof n h h' : fixed_paths F id2path pathof n (h ++ h') -> fixed_paths F id2path pathof n h.
Proof. intros [HF Hg]. split; [done|]. intros id z Hin. apply (Hg id z). apply elem_of_app. by left. Qed.
(** Once Root has returned commitments, every later call returns them too, whatever happens in between. *)
Theorem C52_frozen (C : Curve) F α (pp : PolPP C) rnd order id2path pathof n cs1 cs2 ls1 ls1' ls2 V W :
  tree_params F α pp -> fixed_paths F id2path pathof n (sets (cs1 ++ cs2)) -> (1 <= n)%nat ->
  set_run pp rnd order id2path cs1 ls1 -> Root (C:=C) ls1 = Ret (ls1', Some (V, W)) -> do_calls pp rnd order id2path ls1' cs2 = Ret ls2 ->
  exists ls2', Root (C:=C) ls2 = Ret (ls2', Some (V, W)).
Proof.
  intros Hp Hf Hn Hr HR H. pose proof Hf as Hf1. rewrite sets_app in Hf1. apply fixed_paths_app in Hf1.
  destruct (root_data F α pp rnd order id2path pathof n cs1 ls1 Hp Hf1 Hn Hr) as [[E _]|(Hne & root & R1 & R2)]; [unfold Root in HR; rewrite E in HR; done|].
  pose proof (Root_memorizes ls1 ls1' root V W R1 R2 HR) as Hm.
  assert (Hr1 : set_run pp rnd order id2path (cs1 ++ [CRoot]) ls1') by (apply (set_run_app _ _ _ _ _ _ ls1); [done|cbn; rewrite HR; done]).
  assert (Es : sets (cs1 ++ [CRoot]) = sets cs1) by (rewrite sets_app; apply app_nil_r).
  assert (Hf' : fixed_paths F id2path pathof n (sets ((cs1 ++ [CRoot]) ++ cs2))) by (rewrite sets_app, Es, <- sets_app; done).
  assert (Hm2 : memorized ls2 V W) by (apply (do_calls_memorized F α pp rnd order id2path pathof n cs2 V W Hp Hn (cs1 ++ [CRoot]) ls1' ls2); [done|done|by rewrite Es|done|done]).
  assert (Hr2 : set_run pp rnd order id2path ((cs1 ++ [CRoot]) ++ cs2) ls2) by (apply (set_run_app _ _ _ _ _ _ ls1'); done).
  destruct (root_data F α pp rnd order id2path pathof n _ ls2 Hp Hf' Hn Hr2) as [[_ E]|(_ & root2 & Q1 & Q2)].
  { exfalso. rewrite sets_app, Es in E. destruct (sets cs1); done. }
  exists ls2. by apply (Root_memorized ls2 root2).
Qed.
(** A total proof made later is accepted against the frozen commitment iff that equals the current one. *)
Theorem C52_later_total_proofs (C : Curve) F α (pp : PolPP C) rnd order id2path pathof n cs1 cs2 ls1 ls1' ls2 V W :
  tree_params F α pp -> fixed_paths F id2path pathof n (sets (cs1 ++ cs2)) -> (2 <= n)%nat -> α <> 0 ->
  set_run pp rnd order id2path cs1 ls1 -> Root (C:=C) ls1 = Ret (ls1', Some (V, W)) -> do_calls pp rnd order id2path ls1' cs2 = Ret ls2 ->
  (total_of F n pathof (cs1 ++ cs2) < 2 ^ 63)%Z ->
  exists tp V2 W2, ProveTot pp ls2 = Ret tp /\ current_root ls2 V2 W2 /\ (TotalProof_Verify tp pp V = Ret nil_error <-> V = V2).
Proof.
  intros Hp Hf Hn Hα Hr HR H Hlt.
  assert (Hr1 : set_run pp rnd order id2path (cs1 ++ [CRoot]) ls1') by (apply (set_run_app _ _ _ _ _ _ ls1); [done|cbn; rewrite HR; done]).
  assert (Hr2 : set_run pp rnd order id2path ((cs1 ++ [CRoot]) ++ cs2) ls2) by (apply (set_run_app _ _ _ _ _ _ ls1'); done).
  assert (Es : sets ((cs1 ++ [CRoot]) ++ cs2) = sets (cs1 ++ cs2)) by (rewrite !sets_app; f_equal; apply app_nil_r).
  assert (Hne : sets (cs1 ++ cs2) <> []).
  { pose proof Hf as Hf1. rewrite sets_app in Hf1. apply fixed_paths_app in Hf1.
    destruct (root_data F α pp rnd order id2path pathof n cs1 ls1 Hp Hf1 ltac:(lia) Hr) as [[E _]|(Hne & _)]; [unfold Root in HR; rewrite E in HR; done|]. rewrite sets_app. destruct (sets cs1); done. }
  destruct (C50_total_proof_complete C F α pp rnd order id2path pathof n _ ls2 Hp ltac:(rewrite Es; exact Hf) Hn Hr2 ltac:(rewrite Es; exact Hne)) as (tp & V2 & W2 & H1 & _ & H3 & H4).
  { unfold total_of. rewrite Es. exact Hlt. }
  exists tp, V2, W2. split; [done|]. split; [done|]. split; [|intros ->; done]. intros Hv. unfold TotalProof_Verify in *. rewrite (proj1 Hp), (proj2 Hp) in *.
  apply verify_iff in Hv, H4; [|lia..]. rewrite <- H4 in Hv. clear -Hv Hα.
  assert (E : gmul (α ^ (F + 2 - F)) (gadd V (gopp V2)) = gzero).
  { transitivity (gadd (gmul (α ^ (F + 2 - F)) V) (gopp (gmul (α ^ (F + 2 - F)) V2))); [generalize (α ^ (F + 2 - F)); intros; module|]. rewrite Hv. apply gadd_opp_r. }
  apply gmul_eq_0 in E as [E|E]; [by apply zpow_neq_0 in E|]. by apply gsub_eq_0 in E.
Qed.
Lemma dot_pows m α s : dot m (pows α s (length m)) = α ^ s * peval m α.
Proof.
  revert s. induction m as [|x m IH]; intros s; [cbn; ring|]. cbn [length]. change (pows α s (S (length m))) with (α ^ s :: pows α (S s) (length m)).
  change (dot (x :: m) (α ^ s :: pows α (S s) (length m))) with (x * α ^ s + dot m (pows α (S s) (length m))). rewrite IH. cbn [peval zpow]. ring.
Qed.
Lemma root_bf {C : Curve} F α rnd order id2path pathof n h1 h2 db0 : (forall k b m, order k b m ≡ₚ map_to_list m) -> fixed_paths F id2path pathof n (h1 ++ h2) -> (1 <= n)%nat -> h1 <> [] ->
  forall t1 t2 (w1 w2 : Vertex C), VPuts (C:=C) F α rnd order id2path (NewVerkleTree db0) h1 = Ret t1 -> VPuts (C:=C) F α rnd order id2path (NewVerkleTree db0) (h1 ++ h2) = Ret t2 ->
  stored (vs_db (vt_state t1)) "" w1 -> stored (vs_db (vt_state t2)) "" w2 -> v_bf w2 = v_bf w1.
Proof.
  intros Ho. induction h2 as [|[id z] h2 IH] using rev_ind; intros Hf Hn Hne t1 t2 w1 w2 H1 H2 Hw1 Hw2.
  - rewrite app_nil_r, H1 in H2. injection H2 as <-. rewrite (stored_fun _ _ _ _ Hw1 Hw2). done.
  - rewrite app_assoc in Hf, H2. pose proof H2 as H2'. rewrite VPuts_app in H2'. apply rbind_inv in H2' as (t & Ht & _).
    assert (Hb : below pathof (h1 ++ h2) []).
    { destruct h1 as [|[id' z'] h1]; [done|]. exists id', z'. split; [left|apply prefix_nil]. }
    pose proof (fixed_paths_app _ _ _ _ _ _ Hf) as Hf'. destruct Hf as [HF Hg].
    destruct (verkle_at F α rnd order id2path pathof HF Ho n _ db0 t [] (proj2 Hf') Ht Hb ltac:(cbn; lia)) as (_ & _ & _ & _ & _ & w & Hw & _).
    change (path_key []) with "" in Hw. destruct (Hg id z) as (_ & Hl & _); [apply elem_of_app; right; left|]. destruct (pathof id) as [|i s] eqn:Ep; [cbn in Hl; lia|].
    destruct (verkle_step F α rnd order id2path pathof HF Ho n (h1 ++ h2) db0 id z t t2 [] i s w Hg Ht H2 Ep Hb Hw) as (w' & Hw' & Hbf & _). change (path_key []) with "" in Hw'.
    rewrite (stored_fun _ _ _ _ Hw2 Hw'), Hbf. apply (IH Hf' Hn Hne t1 t w1 w H1 Ht Hw1 Hw).
Qed.
(** After a change of the total, the frozen commitment is accepted for at most F + 1 trapdoors. *)
Theorem C52_few_trapdoors (C : Curve) F id2path pathof n h1 h2 αs :
  fixed_paths F id2path pathof n (h1 ++ h2) -> (2 <= n)%nat ->
  total F n (latest pathof h1) <> total F n (latest pathof (h1 ++ h2)) ->
  (total F n (latest pathof h1) < 2 ^ 63)%Z -> (total F n (latest pathof (h1 ++ h2)) < 2 ^ 63)%Z ->
  NoDup αs ->
  (forall α, α ∈ αs -> exists (pp : PolPP C) rnd order cs1 cs2 ls1 ls1' ls2 V W tp, tree_params F α pp /\
     set_run pp rnd order id2path cs1 ls1 /\ sets cs1 = h1 /\ CRoot ∉ cs1 /\ Root (C:=C) ls1 = Ret (ls1', Some (V, W)) /\
     do_calls pp rnd order id2path ls1' cs2 = Ret ls2 /\ sets cs2 = h2 /\
     ProveTot pp ls2 = Ret tp /\ TotalProof_Verify tp pp V = Ret nil_error) ->
  (length αs <= F + 1)%nat.
Proof.
  intros Hf Hn HT Hlt1 Hlt2 Hnd Hall. destruct (decide (length αs <= F + 1)%nat) as [|Hgt]; [done|]. exfalso.
  set (D := fun h j => zr (total F (n - 1) (fun p => latest pathof h (j :: p)))). set (T1 := total F n (latest pathof h1)) in *. set (T2 := total F n (latest pathof (h1 ++ h2))) in *.
  set (ds := ((fun j => D (h1 ++ h2) j - D h1 j) <$> seq 0 F) ++ [zr T2 - zr T1]).
  assert (Hlen : length (0 :: ds) = (F + 2)%nat) by (unfold ds; cbn [length]; rewrite app_length, fmap_length, seq_length; cbn; lia).
  destruct αs as [|α0 αs0] eqn:Eαs; [cbn in Hgt; lia|]. rewrite <- Eαs in *.
  assert (Hnn : (0 <= T1 /\ 0 <= T2)%Z).
  { destruct (Hall α0) as (pp & rnd & order & cs1 & cs2 & ls1 & ls1' & ls2 & V & W & tp & Hp & Hr & E1 & _ & HR & Hc & E2 & _); [rewrite Eαs; left|].
    assert (Hr1 : set_run pp rnd order id2path (cs1 ++ [CRoot]) ls1') by (apply (set_run_app _ _ _ _ _ _ ls1); [done|cbn; rewrite HR; done]).
    assert (Hr2 : set_run pp rnd order id2path ((cs1 ++ [CRoot]) ++ cs2) ls2) by (apply (set_run_app _ _ _ _ _ _ ls1'); done).
    destruct (set_run_verkle F α0 _ _ _ _ _ _ Hp (proj1 Hf) Hr) as [_ N1]. destruct (set_run_verkle F α0 _ _ _ _ _ _ Hp (proj1 Hf) Hr2) as [_ N2].
    rewrite !sets_app, E1, E2 in N2. cbn [sets omap list_omap] in N2. rewrite app_nil_r in N2. rewrite E1 in N1. rewrite Forall_forall in N1, N2.
    split; apply total_nonneg; intros p z Hz; apply latest_elem in Hz as (id & Hin & _); [apply (N1 _ Hin)|apply (N2 _ Hin)]. }
  assert (H : Forall (fun c => c = 0) (0 :: ds)).
  { apply (poly_roots _ (take (F + 2) αs)).
    - rewrite take_length, Hlen. lia.
    - apply (NoDup_app (take (F + 2) αs) (drop (F + 2) αs)). rewrite take_drop. done.
    - apply Forall_forall. intros α Hα. assert (Hα' : α ∈ αs) by (rewrite <- (take_drop (F + 2) αs); apply elem_of_app; by left). clear Hα.
      cbn [peval]. destruct (decide (α = 0)) as [->|Hα]; [ring|].
      destruct (Hall α Hα') as (pp & rnd & order & cs1 & cs2 & ls1 & ls1' & ls2 & V & W & tp & Hp & Hr & E1 & HnR & HR & Hc & E2 & Htp & Hv).
      assert (Es : sets (cs1 ++ cs2) = h1 ++ h2) by (rewrite sets_app, E1, E2; done).
      assert (Hf1 : fixed_paths F id2path pathof n (sets cs1)) by (rewrite E1; by apply fixed_paths_app in Hf).
      destruct (root_data F α pp rnd order id2path pathof n cs1 ls1 Hp Hf1 ltac:(lia) Hr) as [[E _]|(Hne & _)]; [unfold Root in HR; rewrite E in HR; done|].
      destruct (C52_later_total_proofs C F α pp rnd order id2path pathof n cs1 cs2 ls1 ls1' ls2 V W Hp ltac:(rewrite Es; exact Hf) Hn Hα Hr HR Hc) as (tp' & V2 & W2 & Htp' & Hroot2 & Hiff).
      { unfold total_of. rewrite Es. exact Hlt2. }
      rewrite Htp in Htp'. injection Htp' as <-. apply Hiff in Hv. subst V2.
      destruct (C52_first_call C F α pp rnd order id2path pathof n cs1 ls1 Hp Hf1 ltac:(lia) Hr Hne HnR) as (ls1'' & V1 & W1 & HR' & Hroot1). rewrite HR in HR'. injection HR' as <- <- <-.
      destruct (root_vertex F α pp rnd order id2path pathof n cs1 ls1 Hp Hf1 ltac:(lia) Hr Hne) as (_ & w1 & _ & _ & Hw1 & S1 & V1 & C1). destruct (C1 Hn) as [C1' _].
      assert (Hr1 : set_run pp rnd order id2path (cs1 ++ [CRoot]) ls1') by (apply (set_run_app _ _ _ _ _ _ ls1); [done|cbn; rewrite HR; done]).
      assert (Hr2 : set_run pp rnd order id2path ((cs1 ++ [CRoot]) ++ cs2) ls2) by (apply (set_run_app _ _ _ _ _ _ ls1'); done).
      assert (Es2 : sets ((cs1 ++ [CRoot]) ++ cs2) = h1 ++ h2) by (rewrite !sets_app, E1, E2; f_equal; apply app_nil_r).
      destruct (root_vertex F α pp rnd order id2path pathof n _ ls2 Hp ltac:(rewrite Es2; exact Hf) ltac:(lia) Hr2) as (_ & w2 & _ & _ & Hw2 & S2 & V2 & C2).
      { rewrite Es2, <- E1. destruct (sets cs1); done. }
      destruct (C2 Hn) as [C2' _]. rewrite Es2 in V2. unfold total_of in S2. rewrite Es2 in S2. rewrite E1 in V1. unfold total_of in S1. rewrite E1 in S1.
      assert (Hbf : v_bf w2 = v_bf w1).
      { destruct Hr as [Ho [db0 Hr]]. destruct (do_calls_tree F α _ _ _ _ _ Hp (proj1 Hf) _ _ Hr) as [P1 _].
        pose proof Hc as Hc'. destruct (do_calls_tree F α _ _ _ _ _ Hp (proj1 Hf) _ _ Hc') as [P2 _]. rewrite (Root_tree _ _ _ HR), E2 in P2. rewrite E1 in P1.
        apply (root_bf F α rnd order id2path pathof n h1 h2 db0 Ho Hf ltac:(lia) ltac:(rewrite <- E1; exact Hne) (ls_tree ls1) (ls_tree ls2) w1 w2); [exact P1| |done|done].
        rewrite VPuts_app. change (ls_tree (NewLiabilitySet db0)) with (NewVerkleTree db0) in P1. rewrite P1. exact P2. }
      assert (EV : v_V w1 = v_V w2).
      { destruct Hroot1 as (x1 & X1 & <- & _), Hroot2 as (x2 & X2 & EX & _). rewrite (stored_fun _ _ _ _ Hw1 X1), (stored_fun _ _ _ _ Hw2 X2). done. }
      rewrite commit_values in C1', C2'. injection C1' as C1'. injection C2' as C2'. rewrite <- C1', <- C2' in EV. unfold commitment in EV. apply gen1_inj in EV.
      assert (E0 : dot (vsub (values_vec F w2) (values_vec F w1)) (pows α 1 (F + 2)) = 0) by (rewrite dot_vsub_l by (rewrite !values_vec_length; done); rewrite EV; ring).
      assert (Evec : vsub (values_vec F w2) (values_vec F w1) = ds ++ [0]).
      { unfold values_vec, ds, vsub. rewrite <- app_assoc. rewrite zip_with_app by (rewrite !fmap_length; done). f_equal.
        - apply list_eq. intros i. rewrite lookup_zip_with, !list_lookup_fmap. destruct (seq 0 F !! i) as [j|]; [|done]. cbn. rewrite V1, V2. done.
        - cbn. rewrite S1, S2, Hbf. f_equal. f_equal. ring. }
      rewrite Evec in E0. replace (F + 2)%nat with (length (ds ++ [0])) in E0 by (rewrite app_length; cbn [length] in Hlen |- *; lia). rewrite dot_pows, peval_app in E0. cbn [peval] in E0.
      assert (E0' : α * peval ds α = 0) by (transitivity (α ^ 1 * (peval ds α + α ^ length ds * (0 + α * 0))); [cbn [zpow]; ring|exact E0]).
      rewrite E0'. ring. }
  apply Forall_cons in H as [_ H]. unfold ds in H. apply Forall_app in H as [_ H]. apply Forall_cons in H as [H _]. apply zsub_eq_0 in H.
  apply HT. symmetry. pose proof pow63_r. apply zr_inj_small; [lia..|done].
Qed.

(** ** C54 *)
Theorem C54_not_found (C : Curve) F α (pp : PolPP C) rnd order id2path pathof n cs ls id p co :
  tree_params F α pp -> fixed_paths F id2path pathof n (sets cs) -> set_run pp rnd order id2path cs ls ->
  id2path id = Ret p -> length p = n ->
  ProveLiability pp id2path co ls id = Ret None <-> latest pathof (sets cs) p = None.
Proof.
  intros Hp [HF Hg] Hr Hid Hl. destruct (set_run_verkle F α _ _ _ _ _ _ Hp HF Hr) as [[Ho [db0 Ht]] _].
  pose proof (verkle_get F α rnd order id2path pathof HF Ho n (sets cs) db0 _ id p Hg Ht Hid Hl) as H. unfold ProveLiability. rewrite Hid. cbn [rbind].
  destruct (latest pathof (sets cs) p) as [z|].
  - split; [|done]. destruct H as (ws & -> & _). cbn [rbind]. intros E. exfalso. revert E. destruct (1 <=? length p)%nat; [|done].
    repeat match goal with |- context [rbind ?x _] => destruct x as [?| |]; cbn [rbind]; [|done|done] end || idtac.
    all: try done.
    all: repeat match goal with
      | |- (let '(_, _) := ?x in _) = _ -> _ => destruct x
      | |- rbind ?x _ = _ -> _ => destruct x as [?| |]; cbn [rbind]; [|done|done]
      | |- match ?x with Some _ => _ | None => _ end = _ -> _ => destruct x; [|done]
      end; done.
  - rewrite H. done.
Qed.
Theorem C54_empty_root (C : Curve) (pp : PolPP C) rnd order id2path cs ls : set_run pp rnd order id2path cs ls -> sets cs = [] -> Root (C:=C) ls = Ret (ls, None).
Proof.
  intros [_ [db0 H]] Hs. assert (E : vt_tree (ls_tree ls) = None); [|unfold Root; rewrite E; done].
  assert (E0 : vt_tree (ls_tree (NewLiabilitySet db0)) = None) by done. revert E0 H. generalize (NewLiabilitySet db0). induction cs as [|c cs IH]; intros ls0 E0 H; [cbn in H; by injection H as <-|].
  cbn [do_calls] in H. apply rbind_inv in H as (ls1 & Hc & H). destruct c as [id z|id| | |co id]; [done|..]; cbn [sets omap list_omap] in Hs; specialize (IH Hs ls1); cbn [do_call] in Hc.
  - apply rbind_inv in Hc as (g & _ & E). injection E as <-. auto.
  - unfold Root in Hc. rewrite E0 in Hc. cbn in Hc. injection Hc as <-. auto.
  - apply rbind_inv in Hc as (g & _ & E). injection E as <-. auto.
  - apply rbind_inv in Hc as (g & _ & E). injection E as <-. auto.
Qed.
Theorem C54_empty_total (C : Curve) (pp : PolPP C) (db : gmap string bytes) : db !! "" = None -> ProveTot pp (NewLiabilitySet db) = Panic.
Proof. intros H. unfold ProveTot, NewLiabilitySet. cbn [ls_tree NewVerkleTree vt_state vs_db]. unfold db_get. rewrite H, FromBytes_nil. done. Qed.

(** ** C60 *)
Theorem C60_total_overflow (C : Curve) F α (pp : PolPP C) rnd order id2path pathof n cs ls :
  tree_params F α pp -> fixed_paths F id2path pathof n (sets cs) -> (1 <= n)%nat -> set_run pp rnd order id2path cs ls ->
  (2 ^ 63 <= total_of F n pathof cs < r)%Z ->
  ProveTot pp ls = Panic /\
  (forall id p, id2path id = Ret p -> length p = n -> LS_Get (C:=C) id2path ls id = Ret (latest pathof (sets cs) p)).
Proof.
  intros Hp Hf Hn Hr Hb. split; [|intros id p; by apply (C44_get C F α pp rnd order)].
  assert (Hne : sets cs <> []).
  { intros E. unfold total_of in Hb. rewrite E, total_empty in Hb by done. lia. }
  destruct (root_vertex F α pp rnd order id2path pathof n cs ls Hp Hf Hn Hr Hne) as (_ & w & _ & _ & Hw & Hs & _).
  destruct (prove_tot_spec F α pp ls w Hp Hw) as (π & _ & ->). unfold Zr_Int. rewrite Hs, zv_zr_small by lia. rewrite (proj2 (Z.ltb_ge _ _)) by lia. done.
Qed.
(** No recorded id can be proved: the range proof of the root fails first. *)
Theorem C60_liability_overflow (C : Curve) F α m k (pp : PolPP C) rnd order id2path pathof n cs ls id p co :
  params_ok F α m k pp -> fixed_paths F id2path pathof n (sets cs) -> (1 <= n)%nat -> set_run pp rnd order id2path cs ls ->
  (2 ^ 63 <= total_of F n pathof cs < r)%Z ->
  id2path id = Ret p -> length p = n -> latest pathof (sets cs) p <> None -> coins_ok (2 ^ k) (pc_range co 0) ->
  ProveLiability pp id2path co ls id = Panic.
Proof.
  intros Hpo Hf Hn Hr Hb Hid Hl Hrec Hco. pose proof (params_ok_tree _ _ _ _ _ Hpo) as Hp. pose proof (proj1 Hf) as HF.
  assert (Hne : sets cs <> []).
  { intros E. unfold total_of in Hb. rewrite E, total_empty in Hb by done. lia. }
  destruct (root_vertex F α pp rnd order id2path pathof n cs ls Hp Hf Hn Hr Hne) as (_ & w & _ & _ & Hw & Hs & _).
  destruct (set_run_verkle F α _ _ _ _ _ _ Hp HF Hr) as [[Ho [db0 Ht]] _].
  pose proof (verkle_get F α rnd order id2path pathof HF Ho n (sets cs) db0 _ id p (proj2 Hf) Ht Hid Hl) as H. unfold ProveLiability. rewrite Hid. cbn [rbind].
  destruct (latest pathof (sets cs) p) as [z|]; [|done]. destruct H as (ws & -> & Hlw & Hws). cbn [rbind]. rewrite (proj2 (Nat.leb_le _ _)) by lia.
  destruct (mapM_total (fun i => idx ws i) (seq 0 (length p))) as [vs Hvs].
  { intros i Hi. apply elem_of_seq in Hi. destruct (lookup_lt_is_Some_2 ws i ltac:(lia)) as [x Hx]. exists x. by apply idx_ret. }
  rewrite Hvs. cbn [rbind]. destruct (Hws 0%nat ltac:(lia)) as (w0 & Hw0 & Hst). change (path_key (take 0 p)) with "" in Hst. rewrite (stored_fun _ _ _ _ Hst Hw) in Hw0.
  assert (Hpanic : mapM (fun i => let! v := idx ws i in prove_range_of pp co v i) (seq 0 (length p)) = Panic); [|rewrite Hpanic; done].
  destruct (length p) as [|l]; [lia|]. cbn [seq mapM]. rewrite (idx_ret ws 0 w Hw0). cbn [rbind]. unfold prove_range_of.
  destruct Hpo as (HFk & _ & _ & _ & Hrp & _). rewrite (C22_out_of_range_panics C (po_RPPP pp) k); [done|done|done|].
  intros [_ Hall]. rewrite (ls_fanout_eq F α pp Hp HF), Vertex_Values_spec, Forall_app, Forall_singleton in Hall. destruct Hall as [_ Hsum]. unfold Prop_range.in_range in Hsum. rewrite Hs, zv_zr_small in Hsum by lia. lia.
Qed.

(** ** C62 *)
Theorem C62_finds_nothing (C : Curve) id2path (db : gmap string bytes) id p : id2path id = Ret p -> LS_Get (C:=C) id2path (NewLiabilitySet db) id = Ret None.
Proof. intros H. unfold LS_Get, VGet, Get. rewrite H. done. Qed.
Theorem C62_first_set (C : Curve) F α (pp : PolPP C) rnd order id2path (db : gmap string bytes) id p z :
  tree_params F α pp -> (Z.of_nat F + 2 < 65536)%Z -> (forall k b m, order k b m ≡ₚ map_to_list m) ->
  id2path id = Ret p -> (2 <= length p)%nat -> Forall (fun i => i < F)%nat p -> (0 <= z < 2 ^ 63)%Z ->
  exists ls tp V W, LS_Set pp rnd order id2path (NewLiabilitySet db) id z = Ret ls /\
    current_root ls V W /\ ProveTot pp ls = Ret tp /\ tp_Sum tp = z /\ TotalProof_Verify tp pp V = Ret nil_error.
Proof.
  intros Hp HF Ho Hid Hl Hr Hz. set (cs := [CSet id z] : list call).
  assert (Hf : fixed_paths F id2path (fun _ => p) (length p) (sets cs)).
  { split; [done|]. intros id' z' Hin. apply elem_of_list_singleton in Hin. injection Hin as -> ->. done. }
  assert (Hnil : set_run pp rnd order id2path [] (NewLiabilitySet db)) by (split; [done|exists db; done]).
  destruct (C44_set_never_fails C F α pp rnd order id2path (fun _ => p) (length p) [] (NewLiabilitySet db) id z Hp Hf Hnil) as [ls Hls]; [lia|].
  assert (Hrun : set_run pp rnd order id2path cs ls) by (split; [done|exists db; cbn; rewrite Hls; done]).
  assert (Htot : total_of F (length p) (fun _ => p) cs = z).
  { unfold total_of. change (sets cs) with [(id, z)]. clear -Hr Hl. cbn [latest].
    rewrite (total_ext F (length p) _ (upd_path (fun _ => None) p z)) by (intros q _; unfold upd_path; destruct (decide (p = q)), (decide (q = p)); done).
    clear Hl. induction p as [|i p IH]; [rewrite total_0; unfold upd_path; rewrite decide_True by done; done|]. apply Forall_cons in Hr as [Hi Hr]. cbn [length].
    rewrite (total_upd F (length p) (fun _ => None) _ i Hi); [|intros j q Hj _; apply upd_path_other; done].
    rewrite (total_empty F (S (length p))), (total_empty F (length p) (fun _ => None)) by done.
    rewrite (total_ext F (length p) _ (upd_path (fun _ => None) p z)) by (intros q _; apply (upd_path_cons (fun _ => None))). rewrite IH by done. lia. }
  destruct (C50_total_proof_complete C F α pp rnd order id2path (fun _ => p) (length p) cs ls Hp Hf Hl Hrun ltac:(done)) as (tp & V & W & H1 & H2 & H3 & H4); [lia|].
  exists ls, tp, V, W. rewrite H2. done.
Qed.
(** Before that first Set it proves the previous total, of ids it does not know. *)
Theorem C62_stale_total (C : Curve) (pp : PolPP C) ls : ProveTot pp (NewLiabilitySet (vs_db (vt_state (ls_tree ls)))) = ProveTot pp ls.
Proof. done. Qed.

(** ** The hypotheses can be met: fanout 3, trapdoor 5, the paths of [ex_path] *)
Lemma ex_pp α : exists pp : PolPP toy, tree_params 3 α pp /\ exists m k, params_ok 3 α m k pp.
Proof. destruct (C61_consistent toy 3 Dense α) as (g & pp & n & k & _ & _ & _ & H); [exists 2%Z; done|]. exists pp. split; [by apply (params_ok_tree _ _ n k)|eauto]. Qed.
Lemma ex_sets (h : list (string * Z)) : sets ((fun e => CSet (fst e) (snd e)) <$> h) = h.
Proof. induction h as [|[id z] h IH]; [done|]. rewrite fmap_cons. cbn [fst snd]. change (sets (CSet id z :: ?l)) with ((id, z) :: sets l). f_equal. exact IH. Qed.
Lemma ex_set_run (pp : PolPP toy) α (h : list (string * Z)) : tree_params 3 α pp -> Forall (fun e => 0 <= snd e)%Z h ->
  exists ls, set_run pp ex_rnd ex_order ex_id2path ((fun e => CSet (fst e) (snd e)) <$> h) ls.
Proof.
  intros Hp. induction h as [|[id z] h IH] using rev_ind; intros Hh; [exists (NewLiabilitySet ∅); split; [apply ex_order_perm|exists ∅; done]|].
  apply Forall_app in Hh as [Hh Hz]. apply Forall_cons in Hz as [Hz _]. cbn in Hz. destruct (IH Hh) as [ls Hls].
  destruct (C44_set_never_fails toy 3 α pp ex_rnd ex_order ex_id2path ex_path 2 _ ls id z Hp ltac:(apply ex_fixed) Hls Hz) as [ls' Hls']. exists ls'.
  rewrite fmap_app. apply (set_run_app _ _ _ _ _ _ ls); [done|]. cbn. rewrite Hls'. done.
Qed.
(** Three Sets, then a Get, ProveTot and Root, then another Set: Root stays, the total changes from 13 to 14. *)
Definition ex_calls : list call := [CSet "a" 5; CSet "b" 7; CSet "c" 1; CGet "b"; CProveTot].
Lemma ex_calls_run (pp : PolPP toy) : tree_params 3 (zr 5) pp -> exists ls, set_run pp ex_rnd ex_order ex_id2path ex_calls ls.
Proof.
  intros Hp. destruct (ex_set_run pp (zr 5) [("a", 5%Z); ("b", 7%Z); ("c", 1%Z)] Hp) as [ls Hls]; [repeat (apply Forall_cons; split; [cbn; lia|]); constructor|]. exists ls.
  change ex_calls with ([CSet "a" 5; CSet "b" 7; CSet "c" 1] ++ [CGet "b"; CProveTot] : list call).
  apply (set_run_app _ _ _ _ _ _ ls); [exact Hls|].
  pose proof (C44_get toy 3 (zr 5) pp ex_rnd ex_order ex_id2path ex_path 2 _ ls "b" [0;2]%nat Hp ltac:(apply ex_fixed) Hls Logic.eq_refl Logic.eq_refl) as HG.
  destruct (C50_total_proof_complete toy 3 (zr 5) pp ex_rnd ex_order ex_id2path ex_path 2 _ ls Hp ltac:(apply ex_fixed) ltac:(lia) Hls ltac:(done)) as (tp & V & W & HT & _); [vm_compute; done|].
  cbn [do_calls do_call]. rewrite HG. cbn [rbind]. rewrite HT. done.
Qed.
Example C44_nonvacuous : exists (pp : PolPP toy) ls, tree_params 3 (zr 5) pp /\ fixed_paths 3 ex_id2path ex_path 2 (sets ex_calls) /\
  set_run pp ex_rnd ex_order ex_id2path ex_calls ls /\ LS_Get (C:=toy) ex_id2path ls "b" = Ret (Some 7%Z) /\ LS_Get (C:=toy) ex_id2path ls "a" = Ret (Some 5%Z).
Proof.
  destruct (ex_pp (zr 5)) as (pp & Hp & _). destruct (ex_calls_run pp Hp) as [ls Hls]. exists pp, ls. split; [done|]. split; [apply ex_fixed|]. split; [done|].
  split; [rewrite (C44_get toy 3 (zr 5) pp ex_rnd ex_order ex_id2path ex_path 2 ex_calls ls "b" [0;2]%nat Hp ltac:(apply ex_fixed) Hls Logic.eq_refl Logic.eq_refl)
         |rewrite (C44_get toy 3 (zr 5) pp ex_rnd ex_order ex_id2path ex_path 2 ex_calls ls "a" [0;1]%nat Hp ltac:(apply ex_fixed) Hls Logic.eq_refl Logic.eq_refl)]; done.
Qed.
Example C50_nonvacuous : exists (pp : PolPP toy) ls, tree_params 3 (zr 5) pp /\ fixed_paths 3 ex_id2path ex_path 2 (sets ex_calls) /\
  set_run pp ex_rnd ex_order ex_id2path ex_calls ls /\ sets ex_calls <> [] /\ total_of 3 2 ex_path ex_calls = 13%Z.
Proof. destruct C44_nonvacuous as (pp & ls & H1 & H2 & H3 & _). exists pp, ls. split_and!; [done..|vm_compute; done]. Qed.
(** Whoever knows the trapdoor has an accepted proof of the wrong total 14. *)
Example C51_nonvacuous : exists (pp : PolPP toy) ls V W tp, tree_params 3 (zr 5) pp /\ fixed_paths 3 ex_id2path ex_path 2 (sets ex_calls) /\
  set_run pp ex_rnd ex_order ex_id2path ex_calls ls /\ sets ex_calls <> [] /\ total_of 3 2 ex_path ex_calls = 13%Z /\ current_root ls V W /\
  TotalProof_Verify tp pp V = Ret nil_error /\ tp_Sum tp = 14%Z.
Proof.
  destruct C50_nonvacuous as (pp & ls & H1 & H2 & H3 & H4 & H5).
  destruct (C50_total_proof_complete toy 3 (zr 5) pp ex_rnd ex_order ex_id2path ex_path 2 _ ls H1 H2 ltac:(lia) H3 H4) as (tp & V & W & _ & T2 & T3 & T4); [rewrite H5; done|].
  exists pp, ls, V, W, (MkTP (gadd (tp_proof tp) (gopp (gmul (zr 5 ^ 6) (gen1 toy)))) 14). split; [done|]. split; [done|]. split; [done|]. split; [done|]. split; [done|]. split; [done|]. split; [|done].
  unfold TotalProof_Verify in *. cbn [tp_Sum tp_proof]. rewrite (proj1 H1), (proj2 H1), T2, H5 in *. apply verify_iff; [lia|]. apply verify_iff in T4; [|lia]. rewrite T4. unfold IntToZr.
  change (3 + 2 + 1)%nat with 6%nat. change 14%Z with (13 + 1)%Z. rewrite zr_add. change (zr 1) with 1. generalize (zr 13), (zr 5 ^ 6). intros. module.
Qed.
Example C52_nonvacuous : exists (pp : PolPP toy) ls1 ls1' ls2 V W, tree_params 3 (zr 5) pp /\ fixed_paths 3 ex_id2path ex_path 2 (sets (ex_calls ++ [CSet "a" 6; CProveTot])) /\
  CRoot ∉ ex_calls /\ sets ex_calls <> [] /\ zr 5 <> 0 /\
  set_run pp ex_rnd ex_order ex_id2path ex_calls ls1 /\ Root (C:=toy) ls1 = Ret (ls1', Some (V, W)) /\
  do_calls pp ex_rnd ex_order ex_id2path ls1' [CSet "a" 6; CProveTot] = Ret ls2 /\
  total_of 3 2 ex_path ex_calls = 13%Z /\ total_of 3 2 ex_path (ex_calls ++ [CSet "a" 6; CProveTot]) = 14%Z.
Proof.
  destruct C50_nonvacuous as (pp & ls & H1 & H2 & H3 & H4 & H5).
  assert (HR : CRoot ∉ ex_calls) by (unfold ex_calls; rewrite !not_elem_of_cons; split_and!; try done; apply not_elem_of_nil).
  destruct (C52_first_call toy 3 (zr 5) pp ex_rnd ex_order ex_id2path ex_path 2 ex_calls ls H1 H2 ltac:(lia) H3 H4 HR) as (ls1' & V & W & Hroot & _).
  assert (Hr1 : set_run pp ex_rnd ex_order ex_id2path (ex_calls ++ [CRoot]) ls1') by (apply (set_run_app _ _ _ _ _ _ ls); [done|cbn; rewrite Hroot; done]).
  destruct (C44_set_never_fails toy 3 (zr 5) pp ex_rnd ex_order ex_id2path ex_path 2 _ ls1' "a" 6 H1 ltac:(apply ex_fixed) Hr1 ltac:(lia)) as [ls2 Hls2].
  assert (Hr2 : set_run pp ex_rnd ex_order ex_id2path ((ex_calls ++ [CRoot]) ++ [CSet "a" 6]) ls2) by (apply (set_run_app _ _ _ _ _ _ ls1'); [done|cbn [do_calls do_call]; rewrite Hls2; done]).
  destruct (C50_total_proof_complete toy 3 (zr 5) pp ex_rnd ex_order ex_id2path ex_path 2 _ ls2 H1 ltac:(apply ex_fixed) ltac:(lia) Hr2 ltac:(done)) as (tp & _ & _ & HT & _); [vm_compute; done|].
  exists pp, ls, ls1', ls2, V, W. split; [done|]. split; [apply ex_fixed|]. split; [done|]. split; [done|]. split.
  - intros E. apply zr_inj_small in E; [done|rewrite ?r_eq; vm_compute; done..].
  - split; [done|]. split; [done|]. split; [cbn [do_calls do_call]; rewrite Hls2; cbn [rbind]; rewrite HT; done|]. split; vm_compute; done.
Qed.
Example C54_nonvacuous : exists (pp : PolPP toy) ls, tree_params 3 (zr 5) pp /\ set_run pp ex_rnd ex_order ex_id2path [CSet "a" 5] ls /\
  fixed_paths 3 ex_id2path ex_path 2 (sets [CSet "a" 5]) /\ latest ex_path (sets [CSet "a" 5]) (ex_path "b") = None /\ latest ex_path (sets [CSet "a" 5]) (ex_path "a") = Some 5%Z.
Proof.
  destruct (ex_pp (zr 5)) as (pp & Hp & _). destruct (ex_set_run pp (zr 5) [("a", 5%Z)] Hp) as [ls Hls]; [repeat (apply Forall_cons; split; [cbn; lia|]); constructor|]. exists pp, ls. split; [done|]. split; [exact Hls|]. split; [apply ex_fixed|]. done.
Qed.
Example C60_nonvacuous : exists (pp : PolPP toy) ls m k, params_ok 3 (zr 5) m k pp /\ set_run pp ex_rnd ex_order ex_id2path [CSet "a" (2 ^ 62); CSet "c" (2 ^ 62)] ls /\
  fixed_paths 3 ex_id2path ex_path 2 (sets [CSet "a" (2 ^ 62); CSet "c" (2 ^ 62)]) /\
  (2 ^ 63 <= total_of 3 2 ex_path [CSet "a" (2 ^ 62); CSet "c" (2 ^ 62)] < r)%Z /\ coins_ok (2 ^ k) (toy_coins (2 ^ k)).
Proof.
  destruct (ex_pp (zr 5)) as (pp & Hp & m & k & Hpk). destruct (ex_set_run pp (zr 5) [("a", 2 ^ 62)%Z; ("c", 2 ^ 62)%Z] Hp) as [ls Hls]; [repeat (apply Forall_cons; split; [cbn; lia|]); constructor|].
  exists pp, ls, m, k. split; [done|]. split; [exact Hls|]. split; [apply ex_fixed|]. split; [|apply toy_coins_ok]. split; [vm_compute; discriminate|vm_compute; done].
Qed.
Example C62_nonvacuous : exists pp : PolPP toy, tree_params 3 (zr 5) pp /\ ex_id2path "c" = Ret [2;2]%nat /\ (2 <= length [2;2]%nat)%nat /\ Forall (fun i => i < 3)%nat [2;2]%nat.
Proof. destruct (ex_pp (zr 5)) as (pp & Hp & _). exists pp. split; [done|]. split; [done|]. split; [done|]. repeat constructor. Qed.

Print Assumptions C44_get.
Print Assumptions C44_set_never_fails.
Print Assumptions C44_negative_panics.
Print Assumptions C50_total_proof_complete.
Print Assumptions C51_total_binding.
Print Assumptions C52_first_call.
Print Assumptions C52_frozen.
Print Assumptions C52_later_total_proofs.
Print Assumptions C52_few_trapdoors.
Print Assumptions C54_not_found.
Print Assumptions C54_empty_root.
Print Assumptions C54_empty_total.
Print Assumptions C60_total_overflow.
Print Assumptions C60_liability_overflow.
Print Assumptions C62_finds_nothing.
Print Assumptions C62_first_set.
Print Assumptions C62_stale_total.
