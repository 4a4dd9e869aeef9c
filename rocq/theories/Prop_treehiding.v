(** Properties C78 and C79: the commitments of a whole liability set reveal nothing about the amounts.
    Specification of "reveal nothing": [same_messages] in Hiding.v. *)
From Verif Require Import Hiding Verkle_blind Pol_run Prop_set Prop_verkle Toy.
Local Open Scope Zr_scope.

(** ** What is published *)
(** The liability set after a sequence of Sets, when the tree draws the random values κ *)
Definition filled {C : Curve} (pp : PolPP C) order id2path (h : list (string * Z)) (κ : list Zr) : res LSet :=
  do_calls pp (fun t => nth t κ 0) order id2path (NewLiabilitySet ∅) ((fun '(id, z) => CSet id z) <$> h).
(** The commitments of the vertices on the path of an id, from the root down *)
Definition path_commitments {C : Curve} id2path (ls : LSet) (id : string) : res (option (list (G1 C * option (G1 C)))) :=
  let! g := VGet (C:=C) id2path (ls_tree ls) id in
  Ret (match g with Some (_, ws) => Some ((fun w => (v_V w, v_W w)) <$> ws) | None => None end).
(** The root and the commitments of all vertices *)
Definition published {C : Curve} (pp : PolPP C) order id2path (h : list (string * Z)) (κ : list Zr) :
    res (option (G1 C * option (G1 C)) * list (option (list (G1 C * option (G1 C))))) :=
  let! ls := filled pp order id2path h κ in
  let! '(_, root) := Root ls in
  let! paths := mapM (path_commitments id2path ls) h.*1 in
  Ret (root, paths).
(** The same with the proof of the total *)
Definition published_with_total {C : Curve} (pp : PolPP C) order id2path (h : list (string * Z)) (κ : list Zr) :
    res (option (G1 C * option (G1 C)) * list (option (list (G1 C * option (G1 C)))) * TotalProof C) :=
  let! m := published pp order id2path h κ in
  let! ls := filled pp order id2path h κ in
  let! tp := ProveTot pp ls in
  Ret (m, tp).

Section Tree_hiding.
  Context {C : Curve} (F : nat) (α : Zr) (id2path : string -> res path) (pathof : string -> path) (n : nat).
  Hypothesis Hα : α <> 0.
  Hypothesis HF : (Z.of_nat F + 2 < 65536)%Z.

  (** The exponent of the commitment at q when all random values are 0 *)
  Definition unblinded (h : list (string * Z)) (q : path) : Zr :=
    match VPuts (C:=C) F α (fun _ => 0) (fun _ _ m => map_to_list m) id2path (NewVerkleTree ∅) h with
    | Ret t => match FromBytes (C:=C) (db_get (vs_db (vt_state t)) (path_key q)) with Ret w => dlog (gen1 C) gen1_neq_0 (v_V w) | _ => 0 end
    | _ => 0
    end.
  Lemma commitment_blinding rnd order h db0 t q : (forall k b m, order k b m ≡ₚ map_to_list m) -> good_paths F id2path pathof n h ->
    VPuts (C:=C) F α rnd order id2path (NewVerkleTree db0) h = Ret t -> below pathof h q -> (length q < n)%nat ->
    exists w : Vertex C, stored (vs_db (vt_state t)) (path_key q) w /\ v_bf w = rnd (birth pathof n h.*1 q) /\
      v_V w = gmul (unblinded h q + rnd (birth pathof n h.*1 q) * α ^ (F + 2)) (gen1 C).
  Proof.
    intros Ho Hg Ht Hb Hq. destruct (verkle_history (C:=C) F α (fun _ => 0) (fun _ _ m => map_to_list m) id2path pathof HF (fun _ _ _ => reflexivity _) n h ∅ Hg) as (t0 & Ht0 & _).
    destruct (same_runs (C:=C) F α id2path pathof HF rnd (fun _ => 0) order (fun _ _ m => map_to_list m) Ho (fun _ _ _ => reflexivity _) n h db0 ∅ t t0 Hg Ht Ht0 q Hb Hq) as (w & w0 & Hw & Hw0 & _ & _ & B1 & _ & E).
    exists w. split; [done|]. split; [done|]. unfold unblinded. rewrite Ht0. destruct Hw0 as (bs & Hbs & _ & Hfb). unfold db_get. rewrite Hbs, Hfb.
    transitivity (gadd (v_V w) (gmul (0 * α ^ (F + 2)) (gen1 C))); [module|]. rewrite E. rewrite <- (dlog_spec (gen1 C) gen1_neq_0 (v_V w0)) at 1. module.
  Qed.

  (** The random values that make the amounts of h' look like those of h *)
  Definition tree_shift (h h' : list (string * Z)) (t : nat) : Zr :=
    let q := taker pathof n h.*1 t in zinv (α ^ (F + 2)) * (unblinded h q - unblinded h' q).
  Definition reblind (h h' : list (string * Z)) (κ : list Zr) : list Zr := imap (fun t x => x + tree_shift h h' t) κ.
  Lemma reblind_length h h' κ : length (reblind h h' κ) = length κ.
  Proof. apply imap_length. Qed.
  Lemma reblind_back h h' κ : h.*1 = h'.*1 -> reblind h' h (reblind h h' κ) = κ.
  Proof.
    intros Hids. apply list_eq. intros t. unfold reblind. rewrite !list_lookup_imap. destruct (κ !! t) as [x|]; [|done]. cbn. f_equal. unfold tree_shift. rewrite Hids. ring.
  Qed.
  Lemma reblind_nth h h' κ t : (t < length κ)%nat -> nth t (reblind h h' κ) 0 = nth t κ 0 + tree_shift h h' t.
  Proof.
    intros Ht. rewrite !nth_lookup. unfold reblind. rewrite list_lookup_imap. destruct (lookup_lt_is_Some_2 κ t Ht) as [x ->]. done.
  Qed.

  (** The same commitments everywhere *)
  Lemma reblind_tree order order' h h' κ db0 db0' t t' : (forall k b m, order k b m ≡ₚ map_to_list m) -> (forall k b m, order' k b m ≡ₚ map_to_list m) ->
    good_paths F id2path pathof n h -> h.*1 = h'.*1 -> length κ = (n * length h)%nat ->
    VPuts (C:=C) F α (fun t => nth t κ 0) order id2path (NewVerkleTree db0) h = Ret t ->
    VPuts (C:=C) F α (fun t => nth t (reblind h h' κ) 0) order' id2path (NewVerkleTree db0') h' = Ret t' ->
    forall q (w w' : Vertex C), below pathof h q -> (length q < n)%nat -> stored (vs_db (vt_state t)) (path_key q) w -> stored (vs_db (vt_state t')) (path_key q) w' ->
    v_V w = v_V w' /\ v_W w = v_W w'.
  Proof.
    intros Ho Ho' Hg Hids Hκ Ht Ht'. assert (Hp : α ^ (F + 2) <> 0) by (by apply zpow_neq_0).
    assert (Hbb : forall q, below pathof h q <-> below pathof h' q) by (intros q; rewrite !below_ids, Hids; done).
    assert (Hg' : good_paths F id2path pathof n h').
    { intros id z Hin. assert (Hin' : id ∈ h.*1) by (rewrite Hids; apply elem_of_list_fmap; exists (id, z); done). apply elem_of_list_fmap in Hin' as ([id' z'] & -> & Hin'). apply (Hg _ _ Hin'). }
    assert (HV : forall q (w w' : Vertex C), below pathof h q -> (length q < n)%nat -> stored (vs_db (vt_state t)) (path_key q) w -> stored (vs_db (vt_state t')) (path_key q) w' -> v_V w = v_V w').
    { intros q w w' Hb Hq Hw Hw'. destruct (commitment_blinding _ order h db0 t q Ho Hg Ht Hb Hq) as (x & Hx & _ & E). rewrite (stored_fun _ _ _ _ Hx Hw) in E.
      destruct (commitment_blinding _ order' h' db0' t' q Ho' Hg' Ht' (proj1 (Hbb q) Hb) Hq) as (x' & Hx' & _ & E'). rewrite (stored_fun _ _ _ _ Hx' Hw') in E'.
      rewrite E, E', <- Hids. f_equal. assert (Hin : exists id, id ∈ h.*1 /\ q `prefix_of` pathof id) by (by apply below_ids).
      rewrite reblind_nth by (rewrite Hκ, <- (fmap_length fst h); by apply birth_bound). unfold tree_shift. rewrite taker_birth by done.
      generalize (nth (birth pathof n h.*1 q) κ 0). intros x0. generalize (unblinded h q), (unblinded h' q). intros a b.
      transitivity (b + x0 * α ^ (F + 2) + (zinv (α ^ (F + 2)) * α ^ (F + 2)) * (a - b)); [rewrite zinv_l by done; ring|ring]. }
    intros q w w' Hb Hq Hw Hw'. split; [by apply (HV q)|].
    apply (same_digests (C:=C) F α id2path pathof HF _ _ order order' Ho Ho' n h h' db0 db0' t t' Hg Hg' Hids Ht Ht' HV (n - length q - 1) q w w'); [done|lia|done|done].
  Qed.

  Context (pp : PolPP C).
  Hypothesis Hpp : tree_params F α pp.
  Lemma sets_of h : sets ((fun '(id, z) => CSet id z) <$> h) = h.
  Proof. induction h as [|[id z] h IH]; [done|]. rewrite fmap_cons. unfold sets in *. cbn [omap list_omap]. f_equal. exact IH. Qed.
  Lemma filled_tree order h κ : (forall k b m, order k b m ≡ₚ map_to_list m) -> good_paths F id2path pathof n h -> Forall (fun e => 0 <= snd e)%Z h ->
    exists t, filled pp order id2path h κ = Ret (MkLS t []) /\ VPuts (C:=C) F α (fun t => nth t κ 0) order id2path (NewVerkleTree ∅) h = Ret t.
  Proof.
    intros Ho Hg Hz. destruct (verkle_history (C:=C) F α (fun t => nth t κ 0) order id2path pathof HF Ho n h ∅ Hg) as (t & Ht & _). exists t. split; [|done]. unfold filled.
    change (NewLiabilitySet ∅) with (MkLS (NewVerkleTree ∅) []). revert Ht. generalize (NewVerkleTree ∅). clear Hg. induction Hz as [|[id z] h Hz _ IH]; intros t0 Ht; [cbn in *; by injection Ht as <-|].
    rewrite fmap_cons. cbn [do_calls do_call VPuts] in *. unfold LS_Set. cbn [snd] in Hz. rewrite (proj2 (Z.ltb_ge z 0)) by lia. rewrite (ls_fanout_eq F α pp Hpp HF), (proj2 Hpp). cbn [ls_tree].
    destruct (VPut _ _ _ _ _ _ _ _) as [t1| |]; [|done|done]. cbn [rbind] in *. by apply IH.
  Qed.
End Tree_hiding.

Section Published.
  Context {C : Curve} (F : nat) (α : Zr) (id2path : string -> res path) (pathof : string -> path) (n : nat).
  Hypothesis Hα : α <> 0.
  Hypothesis Hn : (1 <= n)%nat.
  Hypothesis HF : (Z.of_nat F + 2 < 65536)%Z.
  Lemma filled_root order0 h0 κ t : (forall k b m, order0 k b m ≡ₚ map_to_list m) -> good_paths F id2path pathof n h0 -> h0 <> [] ->
    VPuts (C:=C) F α (fun t => nth t κ 0) order0 id2path (NewVerkleTree ∅) h0 = Ret t ->
    exists w : Vertex C, stored (vs_db (vt_state t)) "" w /\ (exists ls, Root (MkLS t []) = Ret (ls, Some (v_V w, v_W w))) /\
      v_sum w = zr (total F n (latest pathof h0)) /\ ((2 <= n)%nat -> Commit (NewPublicParams (F + 2) α) (values_vec F w) = Ret (v_V w)).
  Proof.
    intros Ho0 Hg0 Hne Ht. assert (Hb : below pathof h0 []) by (destruct h0 as [|[id z] ?]; [done|]; exists id, z; split; [left|apply prefix_nil]).
    destruct (verkle_at (C:=C) F α _ order0 id2path pathof HF Ho0 n h0 ∅ t [] Hg0 Ht Hb ltac:(cbn; lia)) as (v & u & Hv & Hu & Hinv & w & Hw & (W1 & W2 & W3) & Hc).
    cbn in Hu. injection Hu as <-. change (path_key []) with "" in Hw, Hinv. cbn [length] in Hinv, W1, W2, W3. rewrite Nat.sub_0_r in Hinv, W1, W2, W3. exists w. split; [done|].
    assert (Hd : vdata v = Some (DKey "")) by (replace n with (S (n - 1)) in Hinv by lia; cbn [VInv] in Hinv; apply Hinv).
    pose proof Hw as (bs & Hbs & _ & Hfb). split.
    - unfold Root. cbn [ls_tree]. rewrite Hv, Hd. unfold memo_Get. cbn [ls_root ls_tree String.length length Nat.eqb negb andb]. unfold db_get. rewrite Hbs, Hfb. cbn [rbind]. eauto.
    - split; [rewrite W1; replace (S (n - 1)) with n by lia; done|]. intros H2. destruct (n - 1)%nat as [|k] eqn:En; [lia|]. apply W3.
  Qed.
  Context (pp : PolPP C).
  Hypothesis Hpp : tree_params F α pp.
  Context (h h' : list (string * Z)).
  Hypothesis Hg : good_paths F id2path pathof n h.
  Hypothesis Hids : h.*1 = h'.*1.
  Hypothesis Hz : Forall (fun e => 0 <= snd e)%Z h.
  Hypothesis Hz' : Forall (fun e => 0 <= snd e)%Z h'.
  Context (order order' : nat -> bool -> gmap nat Zr -> list (nat * Zr)).
  Hypothesis Ho : forall k b m, order k b m ≡ₚ map_to_list m.
  Hypothesis Ho' : forall k b m, order' k b m ≡ₚ map_to_list m.

  Lemma good_paths' : good_paths F id2path pathof n h'.
  Proof. intros id z Hin. assert (Hin' : id ∈ h.*1) by (rewrite Hids; apply elem_of_list_fmap; exists (id, z); done). apply elem_of_list_fmap in Hin' as ([id' z'] & -> & Hin'). apply (Hg _ _ Hin'). Qed.

  (** The two sides, vertex by vertex *)
  Lemma same_vertices κ : length κ = (n * length h)%nat -> exists t t',
    filled pp order id2path h κ = Ret (MkLS t []) /\ filled pp order' id2path h' (reblind (C:=C) F α id2path pathof n h h' κ) = Ret (MkLS t' []) /\
    VPuts (C:=C) F α (fun t => nth t κ 0) order id2path (NewVerkleTree ∅) h = Ret t /\
    VPuts (C:=C) F α (fun t => nth t (reblind (C:=C) F α id2path pathof n h h' κ) 0) order' id2path (NewVerkleTree ∅) h' = Ret t' /\
    forall q (w w' : Vertex C), below pathof h q -> (length q < n)%nat -> stored (vs_db (vt_state t)) (path_key q) w -> stored (vs_db (vt_state t')) (path_key q) w' ->
      v_V w = v_V w' /\ v_W w = v_W w'.
  Proof.
    intros Hκ. destruct (filled_tree (C:=C) F α id2path pathof n HF pp Hpp order h κ Ho Hg Hz) as (t & Hf & Ht).
    destruct (filled_tree (C:=C) F α id2path pathof n HF pp Hpp order' h' (reblind (C:=C) F α id2path pathof n h h' κ) Ho' good_paths' Hz') as (t' & Hf' & Ht').
    exists t, t'. repeat (split; [assumption|]). intros q w w'. apply (reblind_tree (C:=C) F α id2path pathof n Hα HF order order' h h' κ ∅ ∅ t t' Ho Ho' Hg Hids Hκ Ht Ht').
  Qed.
  Lemma paths_same κ κ' t t' : VPuts (C:=C) F α (fun t => nth t κ 0) order id2path (NewVerkleTree ∅) h = Ret t -> VPuts (C:=C) F α (fun t => nth t κ' 0) order' id2path (NewVerkleTree ∅) h' = Ret t' ->
    (forall q (w w' : Vertex C), below pathof h q -> (length q < n)%nat -> stored (vs_db (vt_state t)) (path_key q) w -> stored (vs_db (vt_state t')) (path_key q) w' -> v_V w = v_V w' /\ v_W w = v_W w') ->
    forall id, id ∈ h.*1 -> exists l, path_commitments (C:=C) id2path (MkLS t []) id = Ret l /\ path_commitments (C:=C) id2path (MkLS t' []) id = Ret l.
  Proof.
    intros Ht Ht' Hs.
    intros id Hin. assert (Hin' := Hin). rewrite Hids in Hin'. apply elem_of_list_fmap in Hin as ([id0 z] & E0 & Hin), Hin' as ([id1 z'] & E1 & Hin'). cbn [fst] in E0, E1. rewrite <- E0 in Hin. rewrite <- E1 in Hin'. clear id0 id1 E0 E1.
    destruct (Hg id z Hin) as (Hid & Hl & _).
    pose proof (verkle_get (C:=C) F α _ order id2path pathof HF Ho n h ∅ t id (pathof id) Hg Ht Hid Hl) as G. pose proof (verkle_get (C:=C) F α _ order' id2path pathof HF Ho' n h' ∅ t' id (pathof id) good_paths' Ht' Hid Hl) as G'.
    destruct (latest pathof h (pathof id)) as [x|] eqn:L; [|exfalso; apply (proj1 (latest_None pathof h (pathof id)) L id z Hin); done].
    destruct (latest pathof h' (pathof id)) as [x'|] eqn:L'; [|exfalso; apply (proj1 (latest_None pathof h' (pathof id)) L' id z' Hin'); done].
    destruct G as (ws & G & Lw & Hws), G' as (ws' & G' & Lw' & Hws'). unfold path_commitments. cbn [ls_tree]. rewrite G, G'. cbn [rbind]. eexists. split; [reflexivity|]. do 2 f_equal.
    apply list_eq. intros j. rewrite !list_lookup_fmap. destruct (decide (j < n)%nat) as [Hj|Hj].
    - destruct (Hws j Hj) as (w & -> & Hw), (Hws' j Hj) as (w' & -> & Hw'). cbn. assert (Hb : below pathof h (take j (pathof id))) by (exists id, z; split; [done|]; exists (drop j (pathof id)); by rewrite take_drop).
    destruct (Hs _ w w' Hb ltac:(rewrite take_length; lia) Hw Hw') as [-> ->]. done.
    - rewrite !lookup_ge_None_2 by lia. done.
  Qed.
  Lemma published_same κ : length κ = (n * length h)%nat ->
    published pp order' id2path h' (reblind (C:=C) F α id2path pathof n h h' κ) = published pp order id2path h κ /\ exists m, published pp order id2path h κ = Ret m.
  Proof.
    intros Hκ. destruct (same_vertices κ Hκ) as (t & t' & Hf & Hf' & Ht & Ht' & Hs). unfold published. rewrite Hf, Hf'. cbn [rbind]. clear Hf Hf'.
    assert (HR : exists o ls1 ls2, Root (C:=C) (MkLS t []) = Ret (ls1, o) /\ Root (C:=C) (MkLS t' []) = Ret (ls2, o)).
    { destruct (decide (h = [])) as [E|Hne].
      - assert (E' : h' = []) by (apply (fmap_nil_inv fst); rewrite <- Hids, E; done). rewrite E in Ht. rewrite E' in Ht'. cbn in Ht, Ht'. injection Ht as <-. injection Ht' as <-. exists None. eexists _, _. split; reflexivity.
      - assert (Hne' : h' <> []) by (intros E'; apply Hne; apply (fmap_nil_inv fst); rewrite Hids, E'; done).
        destruct (filled_root order h κ t Ho Hg Hne Ht) as (w & Hw & [ls HR] & _). destruct (filled_root order' h' _ t' Ho' good_paths' Hne' Ht') as (w' & Hw' & [ls' HR'] & _).
        assert (Hb : below pathof h []) by (destruct h as [|[id z] ?]; [done|]; exists id, z; split; [left|apply prefix_nil]).
        destruct (Hs [] w w' Hb ltac:(cbn; lia) Hw Hw') as [E1 E2]. rewrite E1, E2 in HR. eauto 6. }
    destruct HR as (o & ls1 & ls2 & -> & ->). cbn [rbind]. rewrite <- Hids.
    pose proof (paths_same _ _ t t' Ht Ht' Hs) as HP.
    assert (HM : mapM (path_commitments (C:=C) id2path (MkLS t' [])) h.*1 = mapM (path_commitments (C:=C) id2path (MkLS t [])) h.*1).
    { apply Pp_facts.mapM_ext. intros id Hin. destruct (HP id Hin) as (l & -> & ->). done. }
    rewrite HM. split; [done|]. destruct (mapM_total (path_commitments (C:=C) id2path (MkLS t [])) h.*1) as [l ->]; [|eexists; reflexivity]. intros id Hin. destruct (HP id Hin) as (l & -> & _). eauto.
  Qed.
End Published.

(** ** C78 *)
(** Two sets with the same ids, Set in the same order, cannot be told apart by their commitments; the tree draws n values
    per Set. *)
Theorem C78_commitments (C : Curve) F α (pp : PolPP C) order order' id2path pathof n h h' :
  α <> 0 -> tree_params F α pp -> fixed_paths F id2path pathof n h -> (1 <= n)%nat ->
  (forall k b m, order k b m ≡ₚ map_to_list m) -> (forall k b m, order' k b m ≡ₚ map_to_list m) ->
  h.*1 = h'.*1 -> Forall (fun e => 0 <= snd e)%Z h -> Forall (fun e => 0 <= snd e)%Z h' ->
  same_messages (fun κ => length κ = (n * length h)%nat) (fun _ => True) (published pp order id2path h) (published pp order' id2path h') /\
  forall κ, length κ = (n * length h)%nat -> exists m, published pp order id2path h κ = Ret m.
Proof.
  intros Hα Hpp [HF Hg] Hn Ho Ho' Hids Hz Hz'. pose proof (good_paths' F id2path pathof n h h' Hg Hids) as Hg'.
  assert (Hl : length h = length h') by (rewrite <- (fmap_length fst h), Hids; apply fmap_length). split.
  - apply (same_messages_intro _ _ _ _ (fun _ => reblind (C:=C) F α id2path pathof n h h') (fun _ => reblind (C:=C) F α id2path pathof n h' h)); intros κ m Hκ _ E.
    + split; [by rewrite reblind_length|]. split; [|by apply reblind_back]. rewrite <- E. by apply (published_same (C:=C) F α id2path pathof n Hα Hn HF pp Hpp h h' Hg Hids Hz Hz' order order' Ho Ho' κ).
    + split; [by rewrite reblind_length|]. split; [|by apply reblind_back]. rewrite <- E.
      apply (published_same (C:=C) F α id2path pathof n Hα Hn HF pp Hpp h' h Hg' (symmetry Hids) Hz' Hz order' order Ho' Ho κ). by rewrite Hκ, Hl.
  - intros κ Hκ. by apply (published_same (C:=C) F α id2path pathof n Hα Hn HF pp Hpp h h' Hg Hids Hz Hz' order order' Ho Ho' κ).
Qed.
(** Together with the proof of the total, if the totals are the same *)
Lemma total_same {C : Curve} F α id2path pathof n pp h h' order order' : α <> 0 -> tree_params (C:=C) F α pp -> (2 <= n)%nat -> (Z.of_nat F + 2 < 65536)%Z -> good_paths F id2path pathof n h ->
  (forall k b m, order k b m ≡ₚ map_to_list m) -> (forall k b m, order' k b m ≡ₚ map_to_list m) ->
  h.*1 = h'.*1 -> Forall (fun e => 0 <= snd e)%Z h -> Forall (fun e => 0 <= snd e)%Z h' -> h <> [] ->
  total F n (latest pathof h) = total F n (latest pathof h') -> forall κ, length κ = (n * length h)%nat ->
  published_with_total pp order' id2path h' (reblind (C:=C) F α id2path pathof n h h' κ) = published_with_total pp order id2path h κ /\
  ((total F n (latest pathof h) < 2 ^ 63)%Z -> exists m, published_with_total pp order id2path h κ = Ret m).
Proof.
  intros Hα Hpp Hn HF Hg Ho Ho' Hids Hz Hz' Hne Htot κ Hκ. pose proof (good_paths' F id2path pathof n h h' Hg Hids) as Hg'.
  assert (Hne' : h' <> []) by (intros E'; apply Hne; apply (fmap_nil_inv fst); rewrite Hids, E'; done).
  destruct (published_same (C:=C) F α id2path pathof n Hα ltac:(lia) HF pp Hpp h h' Hg Hids Hz Hz' order order' Ho Ho' κ Hκ) as [E [m Hm]].
  destruct (same_vertices (C:=C) F α id2path pathof n Hα HF pp Hpp h h' Hg Hids Hz Hz' order order' Ho Ho' κ Hκ) as (t & t' & Hf & Hf' & Ht & Ht' & Hs).
  unfold published_with_total. rewrite E, Hm, Hf, Hf'. cbn [rbind].
  destruct (filled_root (C:=C) F α id2path pathof n ltac:(lia) HF order h κ t Ho Hg Hne Ht) as (w & Hw & _ & S1 & C1). destruct (filled_root (C:=C) F α id2path pathof n ltac:(lia) HF order' h' _ t' Ho' Hg' Hne' Ht') as (w' & Hw' & _ & S2 & C2).
  assert (Hb : below pathof h []) by (destruct h as [|[id z] ?]; [done|]; exists id, z; split; [left|apply prefix_nil]).
  destruct (Hs [] w w' Hb ltac:(cbn; lia) Hw Hw') as [EV _]. specialize (C1 Hn). specialize (C2 Hn).
  destruct (prove_tot_spec F α pp (MkLS t []) w Hpp Hw) as (π & O1 & ->). destruct (prove_tot_spec F α pp (MkLS t' []) w' Hpp Hw') as (π' & O2 & ->).
  assert (Eπ : π = π').
  { rewrite commit_spec in C1, C2 by (rewrite ?values_vec_length; lia). rewrite open_spec in O1, O2 by (rewrite ?values_vec_length; lia).
    apply (f_equal (fun x => match x with Ret y => y | _ => v_V w end)) in C1, C2. rewrite <- EV in C2. rewrite <- C2 in C1. unfold commitment in C1. apply gmul_cancel in C1; [|apply gen1_neq_0].
    apply (f_equal (fun x => match x with Ret y => snd y | _ => π end)) in O1. apply (f_equal (fun x => match x with Ret y => snd y | _ => π end)) in O2. cbn [snd] in O1, O2. rewrite <- O1, <- O2. f_equal. unfold open_exp.
    rewrite C1. rewrite !nth_lookup, !values_vec_sum, S1, S2, Htot. done. }
  rewrite Eπ, S1, S2, Htot. split; [done|]. intros Hlt. pose proof pow63_r as Hr63.
  assert (Hnn : (0 <= total F n (latest pathof h'))%Z). { apply total_nonneg. intros p z Hx. apply latest_elem in Hx as (id & Hin & _). rewrite Forall_forall in Hz'. apply (Hz' _ Hin). }
  unfold Zr_Int. rewrite zv_zr_small by lia. rewrite (proj2 (Z.ltb_lt _ _)) by lia. cbn [rbind]. eauto.
Qed.
Theorem C78_with_total (C : Curve) F α (pp : PolPP C) order order' id2path pathof n h h' :
  α <> 0 -> tree_params F α pp -> fixed_paths F id2path pathof n h -> (2 <= n)%nat ->
  (forall k b m, order k b m ≡ₚ map_to_list m) -> (forall k b m, order' k b m ≡ₚ map_to_list m) ->
  h.*1 = h'.*1 -> Forall (fun e => 0 <= snd e)%Z h -> Forall (fun e => 0 <= snd e)%Z h' -> h <> [] ->
  total F n (latest pathof h) = total F n (latest pathof h') ->
  same_messages (fun κ => length κ = (n * length h)%nat) (fun _ => True) (published_with_total pp order id2path h) (published_with_total pp order' id2path h') /\
  ((total F n (latest pathof h) < 2 ^ 63)%Z -> forall κ, length κ = (n * length h)%nat -> exists m, published_with_total pp order id2path h κ = Ret m).
Proof.
  intros Hα Hpp [HF Hg] Hn Ho Ho' Hids Hz Hz' Hne Htot. pose proof (good_paths' F id2path pathof n h h' Hg Hids) as Hg'.
  assert (Hl : length h = length h') by (rewrite <- (fmap_length fst h), Hids; apply fmap_length).
  assert (Hne' : h' <> []) by (intros E'; apply Hne; apply (fmap_nil_inv fst); rewrite Hids, E'; done). split.
  - apply (same_messages_intro _ _ _ _ (fun _ => reblind (C:=C) F α id2path pathof n h h') (fun _ => reblind (C:=C) F α id2path pathof n h' h)); intros κ m Hκ _ E.
    + split; [by rewrite reblind_length|]. split; [|by apply reblind_back]. rewrite <- E. by apply (total_same F α id2path pathof n pp h h' order order').
    + split; [by rewrite reblind_length|]. split; [|by apply reblind_back]. rewrite <- E. apply (total_same F α id2path pathof n pp h' h order' order); try done. by rewrite Hκ, Hl.
  - intros Hlt κ Hκ. by apply (total_same F α id2path pathof n pp h h' order order').
Qed.

(** ** C79: publishing twice *)
(** Blinding factors are not refreshed: the roots before and after one more Set differ by a public function of the change
    of the amount. *)
Definition published_twice {C : Curve} (pp : PolPP C) order id2path (h : list (string * Z)) (id : string) (z : Z) (κ : list Zr) :
    res (option (G1 C * option (G1 C)) * option (G1 C * option (G1 C))) :=
  let! '(root, _) := published pp order id2path h κ in
  let! '(root', _) := published pp order id2path (h ++ [(id, z)]) κ in
  Ret (root, root').
Theorem C79_update_difference (C : Curve) F α (pp : PolPP C) order id2path pathof n h id z i s κ :
  tree_params F α pp -> fixed_paths F id2path pathof n (h ++ [(id, z)]) -> (2 <= n)%nat -> (forall k b m, order k b m ≡ₚ map_to_list m) ->
  Forall (fun e => 0 <= snd e)%Z (h ++ [(id, z)]) -> h <> [] -> pathof id = i :: s ->
  forall root root', published_twice pp order id2path h id z κ = Ret (root, root') ->
  exists V W V' W' Gi GF, root = Some (V, W) /\ root' = Some (V', W') /\ pp_G1s (po_PPPP pp) !! i = Some Gi /\ pp_G1s (po_PPPP pp) !! F = Some GF /\
    gadd V' (gopp V) = gmul (zr (z - old_liability pathof h id)) (gadd Gi GF).
Proof.
  intros Hpp [HF Hg] Hn Ho Hz Hne Hp root root' E.
  assert (Hg0 : good_paths F id2path pathof n h) by (intros id' z' Hin; apply (Hg id' z'); apply elem_of_app; by left).
  destruct (filled_tree (C:=C) F α id2path pathof n HF pp Hpp order h κ Ho Hg0 (proj1 (proj1 (Forall_app _ _ _) Hz))) as (t & Hf & Ht).
  destruct (filled_tree (C:=C) F α id2path pathof n HF pp Hpp order (h ++ [(id, z)]) κ Ho Hg Hz) as (t' & Hf' & Ht').
  destruct (filled_root (C:=C) F α id2path pathof n ltac:(lia) HF order h κ t Ho Hg0 Hne Ht) as (w & Hw & [ls HR] & _).
  destruct (filled_root (C:=C) F α id2path pathof n ltac:(lia) HF order (h ++ [(id, z)]) κ t' Ho Hg ltac:(by destruct h) Ht') as (w' & Hw' & [ls' HR'] & _).
  unfold published_twice, published in E. rewrite Hf, Hf' in E. cbn [rbind] in E. rewrite HR, HR' in E. cbn [rbind] in E.
  destruct (mapM _ _) as [ps| |] in E; [|done|done]. cbn [rbind] in E. destruct (mapM _ _) as [ps'| |] in E; [|done|done]. cbn [rbind] in E. injection E as <- <-.
  assert (Hb : below pathof h []) by (destruct h as [|[id0 z0] ?]; [done|]; exists id0, z0; split; [left|apply prefix_nil]).
  destruct (Hg id z) as (_ & Hl & _); [apply elem_of_app; right; left|]. rewrite Hp in Hl. cbn [length] in Hl.
  pose proof Ht' as Hput. rewrite VPuts_app, Ht in Hput. cbn [rbind VPuts] in Hput. apply rbind_inv in Hput as (t2 & Hput & E2). injection E2 as ->.
  destruct (C49_no_refresh C F α (fun t => nth t κ 0) order id2path pathof n h id z t t' [] i s (conj HF Hg) (conj Ho (ex_intro _ ∅ Ht)) Hput Hp Hb) as (x & x' & Hx & Hx' & _ & Hd).
  change (path_key []) with "" in Hx, Hx'. rewrite (stored_fun _ _ _ _ Hx Hw), (stored_fun _ _ _ _ Hx' Hw') in Hd.
  destruct Hd as (Gi & GF & G1 & G2 & Hd); [intros ->; cbn in Hl; lia|].
  exists (v_V w), (v_W w), (v_V w'), (v_W w'), Gi, GF. rewrite (proj2 Hpp). done.
Qed.
(** So two different new amounts never lead to the same pair of roots, whatever the random values. *)
Theorem C79_updates_hidden_refuted (C : Curve) F α (pp : PolPP C) order order' id2path pathof n h id z z' i s κ κ' m :
  tree_params F α pp -> fixed_paths F id2path pathof n (h ++ [(id, z)]) -> (2 <= n)%nat ->
  (forall k b m, order k b m ≡ₚ map_to_list m) -> (forall k b m, order' k b m ≡ₚ map_to_list m) ->
  Forall (fun e => 0 <= snd e)%Z (h ++ [(id, z)]) -> h <> [] -> pathof id = i :: s -> (0 <= z < 2 ^ 63)%Z -> (0 <= z' < 2 ^ 63)%Z -> z <> z' ->
  α ^ (i + 1) + α ^ (F + 1) <> 0 ->
  published_twice pp order id2path h id z κ = Ret m -> published_twice pp order' id2path h id z' κ' = Ret m -> False.
Proof.
  intros Hpp [HF Hg] Hn Ho Ho' Hz Hne Hp Hr Hr' Hd Hα E E'. destruct m as [root root'].
  assert (Hg' : good_paths F id2path pathof n (h ++ [(id, z')])).
  { intros id0 z0 Hin. apply elem_of_app in Hin as [Hin|Hin]; [apply (Hg id0 z0); apply elem_of_app; by left|]. apply elem_of_list_singleton in Hin. injection Hin as -> ->. apply (Hg id z). apply elem_of_app. right. left. }
  assert (Hz' : Forall (fun e => 0 <= snd e)%Z (h ++ [(id, z')])) by (rewrite Forall_app in Hz |- *; split; [apply Hz|]; constructor; [cbn; lia|constructor]).
  destruct (C79_update_difference C F α pp order id2path pathof n h id z i s κ Hpp (conj HF Hg) Hn Ho Hz Hne Hp root root' E) as (V & W & V' & W' & Gi & GF & R1 & R2 & G1 & G2 & D).
  destruct (C79_update_difference C F α pp order' id2path pathof n h id z' i s κ' Hpp (conj HF Hg') Hn Ho' Hz' Hne Hp root root' E') as (X & Y & X' & Y' & Gi' & GF' & R1' & R2' & G1' & G2' & D').
  rewrite R1 in R1'. injection R1' as <- <-. rewrite R2 in R2'. injection R2' as <- <-. rewrite G1 in G1'. injection G1' as <-. rewrite G2 in G2'. injection G2' as <-.
  destruct (Hg id z) as (_ & _ & Hlt); [apply elem_of_app; right; left|]. rewrite Hp in Hlt. apply Forall_cons in Hlt as [Hi _].
  rewrite (proj2 Hpp) in G1, G2. rewrite pp_G1s_lookup_lo in G1, G2 by lia. apply (inj Some) in G1, G2. rewrite D in D'.
  assert (Hsum : gadd Gi GF = gmul (α ^ (i + 1) + α ^ (F + 1)) (gen1 C)) by (rewrite <- G1, <- G2; module). rewrite Hsum in D'.
  apply gmul_cancel in D'.
  - apply Hd. rewrite !zr_sub in D'. pose proof pow63_r as Hr63. apply zr_inj_small; [lia|lia|].
    transitivity (zr z - zr (old_liability pathof h id) + zr (old_liability pathof h id)); [ring|]. rewrite D'. ring.
  - intros H. apply gmul_eq_0 in H as [H|H]; [done|by apply gen1_neq_0 in H].
Qed.

(** ** The hypotheses can be met *)
Example C78_nonvacuous : exists (pp : PolPP toy) (h h' : list (string * Z)), tree_params 3 (zr 5) pp /\ zr 5 <> 0 /\ fixed_paths 3 ex_id2path ex_path 2 h /\
  (forall k b m, ex_order k b m ≡ₚ map_to_list m) /\ h.*1 = h'.*1 /\ h <> h' /\ Forall (fun e => 0 <= snd e)%Z h /\ Forall (fun e => 0 <= snd e)%Z h' /\ h <> [] /\
  total 3 2 (latest ex_path h) = total 3 2 (latest ex_path h') /\ (total 3 2 (latest ex_path h) < 2 ^ 63)%Z /\
  fixed_paths 3 ex_id2path ex_path 2 (h ++ [("b", 9%Z)]) /\ ex_path "b" = [0;2]%nat /\ zr 5 ^ (0 + 1) + zr 5 ^ (3 + 1) <> 0.
Proof.
  destruct (ex_pp (zr 5)) as (pp & Hpp & _). exists pp, [("a", 5%Z); ("b", 7%Z); ("c", 1%Z)], [("a", 0%Z); ("b", 13%Z); ("c", 0%Z)].
  split; [done|]. split; [done|]. split; [apply ex_fixed|]. split; [apply ex_order_perm|]. split; [done|]. split; [done|].
  split; [repeat (apply Forall_cons; split; [cbn; lia|]); constructor|]. split; [repeat (apply Forall_cons; split; [cbn; lia|]); constructor|]. split; [done|].
  split; [vm_compute; done|]. split; [vm_compute; done|]. split; [apply ex_fixed|]. split; [done|].
  replace (zr 5 ^ (0 + 1) + zr 5 ^ (3 + 1)) with (zr 630); [done|]. cbn [zpow Nat.add]. change 1 with (zr 1). rewrite <- !zr_mul, <- zr_add. done.
Qed.
Print Assumptions C78_commitments.
Print Assumptions C78_with_total.
Print Assumptions C79_update_difference.
Print Assumptions C79_updates_hidden_refuted.
