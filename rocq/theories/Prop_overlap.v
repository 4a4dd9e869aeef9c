(** Property C63: ids whose paths overlap. *)
From Verif Require Import Prop_paths Prop_params Toy Pol_run Prop_set.
Local Open Scope Zr_scope.

Section Overlap.
  Context {C : Curve} (F : nat) (α : Zr) (rnd : nat -> Zr) (order : nat -> bool -> gmap nat Zr -> list (nat * Zr)).
  Hypothesis HF : (Z.of_nat F + 2 < 65536)%Z.
  Hypothesis order_perm : forall n b m, order n b m ≡ₚ map_to_list m.
  Notation upd := (updateInnerVertex (NewPublicParams (C:=C) (F + 2) α) rnd order).

  (** A Put at an inner vertex of a tree *)
  Lemma put_short p : forall st v q M K z m, p <> [] -> VInv F α (C:=C) (length p + S m) q v M K (vs_db st) -> is_Some (at_path v p) ->
    exists st' v', put_at upd F st v (path_key q) p (Some (DInt z)) = Ret (st', v') /\ vdata v' = Some (DKey (path_key q)) /\
      (exists w : Vertex C, stored (vs_db st') (path_key q) w) /\
      (forall k, (forall r, k <> path_key (q ++ r)) -> vs_db st' !! k = vs_db st !! k).
  Proof.
    induction p as [|i p IH]; intros st v q M K z m Hne Hinv Hat; [done|]. clear Hne. cbn [length Nat.add VInv] in Hinv.
    destruct Hinv as (Hkey & Hdata & _ & Hchild & w & Hw & Hspec). cbn [at_path] in Hat. destruct (mget (vdesc v) i) as [c|] eqn:Ec; [|by destruct Hat].
    pose proof (Hchild i) as Hc. rewrite Ec in Hc. destruct Hc as [Hi Hc].
    assert (Hrange : forall u' k u, mget (mset (vdesc v) i u') k = Some u -> (k < F)%nat).
    { intros u' k u. rewrite mget_mset. destruct (decide (k = i)) as [->|]; [done|]. intros Hk. specialize (Hchild k). rewrite Hk in Hchild. apply Hchild. }
    assert (Hsm : small F (v_values w)).
    { apply (wspec_small F α _ _ _ _ _ _ _ Hspec). intros j. unfold has_child. specialize (Hchild j). destruct (mget (vdesc v) j); [intros _; apply Hchild|done]. }
    destruct Hspec as (S1 & S2 & S3).
    assert (Hraw : forall u', ((fun k => match mget (mset (vdesc v) i u') k with Some u => vdata u | None => None end) <$> seq 0 F) !! i = Some (vdata u')).
    { intros u'. rewrite list_lookup_fmap, lookup_seq_lt by done. cbn [fmap option_fmap option_map Nat.add]. rewrite mget_mset, decide_True by done. done. }
    assert (Hh : exists h', (length p + S m)%nat = S h') by (exists (length p + m)%nat; lia). destruct Hh as [h' Hh]. rewrite Hh in S3. destruct S3 as (D1 & D2 & D3).
    assert (He : forall j, is_Some (v_values w !! j) -> is_Some (v_digests w !! j)).
    { intros j. rewrite S2. specialize (D1 j). destruct (has_child v j); [|intros [? [=]]]. destruct D1 as (x & _ & ->). done. }
    assert (Hn : forall j, v_values w !! j = None -> v_digests w !! j = None).
    { intros j. rewrite S2. specialize (D1 j). destruct (has_child v j); done. }
    assert (Hsd : small F (v_digests w)).
    { intros j Hj. apply Hsm. destruct (v_values w !! j) eqn:E; [done|]. rewrite (Hn j E) in Hj. by destruct Hj. }
    assert (Hput : put_at upd F st v (path_key q) (i :: p) (Some (DInt z)) = put_at upd F st (Vtx (path_key q) (vdata v) (vdesc v)) (path_key q) (i :: p) (Some (DInt z))) by (destruct v; cbn in Hkey; rewrite Hkey; done).
    destruct p as [|i2 p].
    - (* the parent of the new leaf *)
      set (u' := Vtx (vkey c) (Some (DInt z)) (vdesc c)).
      pose proof (cb_bottom_upd F α rnd order order_perm st (path_key q) (DKey (path_key q)) _ i w z Hi Hw (Hraw u') Hsm) as Hcb.
      eexists _, _. split.
      { apply put_at_cons with (st1 := st) (u' := u').
        - unfold child_or_new. rewrite Ec. done.
        - apply Hrange.
        - unfold updateInnerVertex. rewrite Hkey, Hdata. exact Hcb. }
      cbn [vdata]. split; [done|]. split.
      + eexists. apply (stored_store order order_perm); cbn [v_digests v_values]; [by apply (small_keys F rnd order HF order_perm)|]. by apply (small_keys F rnd order HF order_perm), small_insert.
      + intros k Hk. cbn [store vs_db]. rewrite lookup_insert_ne; [done|]. intros E. apply (Hk []). rewrite app_nil_r. done.
    - destruct (IH st c (q ++ [i]) _ _ z m ltac:(done) Hc Hat) as (st1 & u' & H1 & Hu & [wu Hwu] & Hframe). rewrite path_key_snoc in H1.
      assert (Hw1 : stored (vs_db st1) (path_key q) w).
      { apply (stored_db (vs_db st)); [|done]. apply Hframe. intros r E. apply path_key_inj in E. apply (f_equal length) in E. rewrite !app_length in E. cbn in E. lia. }
      pose proof (Hraw u') as Hr. rewrite Hu in Hr.
      destruct (cb_inner_upd F α rnd order order_perm st1 (path_key q) (DKey (path_key q)) _ i w _ wu Hi Hw1 Hr Hwu Hsm He Hn) as (V & W & Hcb & _ & _).
      eexists _, _. split.
      { apply put_at_cons with (st1 := st1) (u' := u').
        - unfold child_or_new. rewrite Ec. exact H1.
        - apply Hrange.
        - unfold updateInnerVertex. rewrite Hkey, Hdata. exact Hcb. }
      cbn [vdata]. split; [done|]. split.
      + eexists. apply (stored_store order order_perm); cbn [v_digests v_values]; by apply (small_keys F rnd order HF order_perm), small_insert.
      + intros k Hk. cbn [store vs_db]. rewrite lookup_insert_ne; [|intros E; apply (Hk []); rewrite app_nil_r; done].
        apply Hframe. intros r E. apply (Hk (i :: r)). rewrite E, <- app_assoc. done.
  Qed.

  (** A Put through a vertex that holds a liability *)
  Lemma put_through_leaf s : forall st v q z z', s <> [] -> vdata v = Some (DInt z') -> vkey v = path_key q -> vdesc v = [] -> vs_db st !! path_key q = None ->
    put_at upd F st v (path_key q) s (Some (DInt z)) = Panic.
  Proof.
    intros st v q z z' Hs Hd Hk Hv Hdb. destruct s as [|i s]; [done|]. cbn [put_at]. rewrite Hv. cbn [mget]. destruct (decide (Forall (fun i => i < F)%nat s)) as [Hr|Hr].
    - destruct (verkle_put (C:=C) F α rnd order HF order_perm s st (Vtx (path_key (q ++ [i])) None []) (q ++ [i]) (fun _ => None) (fun _ => 0%nat) z Hr) as (st' & u' & Hput & _ & Hframe & _); [right; done|].
      rewrite path_key_snoc in Hput. rewrite Hput. cbn [rbind mset]. destruct (decide (i < F)%nat) as [Hi|Hi].
      2: { rewrite (rawData_bad F [(i, u')] i u'); [done| |lia]. cbn [mget]. by rewrite decide_True. }
      rewrite rawData_spec. 2: { intros k u. cbn [mget]. destruct (decide (k = i)) as [->|]; done. }
      cbn [rbind]. rewrite Hd, Hk. 
      assert (Hq : vs_db st' !! path_key q = None).
      { rewrite Hframe; [done|]. intros r _ _ E. apply path_key_inj in E. apply (f_equal length) in E. rewrite !app_length in E. cbn in E. lia. }
      unfold updateInnerVertex. destruct s; unfold updateLayerAboveLeaves, updateInnerLayer, fetchVertex, db_get; rewrite Hq; done.
    - assert (Hp : put_at upd F st (Vtx (child_key (path_key q) i) None []) (child_key (path_key q) i) s (Some (DInt z)) = Panic); [|rewrite Hp; done].
      rewrite <- path_key_snoc. generalize (q ++ [i]). clear -Hr HF order_perm. revert st. induction s as [|j s IH]; intros st q; [destruct Hr; constructor|].
      cbn [put_at vdesc mget]. destruct (decide (Forall (fun i => i < F)%nat s)) as [Hs|Hs]; [|rewrite <- path_key_snoc, (IH Hs); done].
      destruct (verkle_put (C:=C) F α rnd order HF order_perm s st (Vtx (path_key (q ++ [j])) None []) (q ++ [j]) (fun _ => None) (fun _ => 0%nat) z Hs) as (st' & u' & Hput & _); [right; done|].
      rewrite path_key_snoc in Hput. rewrite Hput. cbn [rbind mset]. rewrite (rawData_bad F [(j, u')] j u'); [done| |].
      + cbn [mget]. by rewrite decide_True.
      + destruct (decide (j < F)%nat); [|lia]. exfalso. apply Hr. by constructor.
  Qed.
  Lemma put_panics p : forall st v q s z M K, VInv F α (C:=C) (length p) q v M K (vs_db st) -> M p <> None -> s <> [] -> vs_db st !! path_key (q ++ p) = None ->
    (forall u, at_path v p = Some u -> vkey u = path_key (q ++ p) /\ vdesc u = []) ->
    put_at upd F st v (path_key q) (p ++ s) (Some (DInt z)) = Panic.
  Proof.
    induction p as [|i p IH]; intros st v q s z M K Hinv HM Hs Hdb Hleaf.
    - cbn in Hinv. destruct Hinv as (z' & Hd & _). destruct (Hleaf v Logic.eq_refl) as [Hk Hv]. rewrite app_nil_r in *. by apply (put_through_leaf s st v q z z').
    - cbn [length VInv] in Hinv. destruct Hinv as (_ & _ & _ & Hchild & _). specialize (Hchild i). cbn [app put_at].
      destruct (mget (vdesc v) i) as [c|] eqn:Ec; [|exfalso; apply HM; apply Hchild; done]. destruct Hchild as [_ Hc].
      pose proof (IH st c (q ++ [i]) s z _ _ Hc HM Hs) as Hp. rewrite <- app_assoc, path_key_snoc in Hp. rewrite Hp; [done|exact Hdb|].
      intros u Hu. apply Hleaf. cbn [at_path]. rewrite Ec. exact Hu.
  Qed.
End Overlap.

Lemma FromBytes_not_Hang {C : Curve} bs : FromBytes (C:=C) bs <> Hang.
Proof.
  assert (Hm : forall l m, read_map l m <> Hang).
  { intros l. induction l as [|[k x] l IH]; intros m; cbn [read_map]; [done|]. destruct (_ <=? _)%nat; [apply IH|done]. }
  unfold FromBytes. destruct (read_RawVertex bs) as [[[[[[bf vs] ds] s] V] W]|]; [|done]. destruct (dec1 C V) as [V'|]; [|done].
  assert (HW : match W with [] => Ret None | _ => match dec1 C W with Some W => Ret (Some W) | None => Panic end end <> (Hang : res (option (G1 C)))) by (destruct W; [done|]; destruct (dec1 C _); done).
  destruct (match W with [] => _ | _ => _ end) as [W'| |]; [|done|by destruct HW]. cbn [rbind].
  pose proof (Hm ds ∅) as H1. destruct (read_map ds ∅); [|done|by destruct H1]. cbn [rbind]. pose proof (Hm vs ∅) as H2. destruct (read_map vs ∅); [done|done|by destruct H2].
Qed.
Lemma mapM_panics {A B} (f : A -> res B) l x : x ∈ l -> f x = Panic -> (forall y, y ∈ l -> f y <> Hang) -> mapM f l = Panic.
Proof.
  induction l as [|y l IH]; intros Hx Hf Hh; [by apply elem_of_nil in Hx|]. cbn [mapM]. pose proof (Hh y ltac:(left)) as Hy. destruct (f y) as [b| |] eqn:E; cbn [rbind]; [|done|by destruct Hy].
  apply elem_of_cons in Hx as [->|Hx]; [congruence|]. rewrite IH; [done|done|done|]. intros y' Hy'. apply Hh. by right.
Qed.

(** After a history with paths of length n the vertices at depth n have no descendants, and their keys are not in the
    database unless they were there at the start. *)
Lemma leaf_facts {C : Curve} F α rnd order id2path pathof n h db0 t p u : (Z.of_nat F + 2 < 65536)%Z -> (forall n b m, order n b m ≡ₚ map_to_list m) ->
  good_paths F id2path pathof n h -> VPuts (C:=C) F α rnd order id2path (NewVerkleTree db0) h = Ret t -> length p = n ->
  vs_db (vt_state t) !! path_key p = db0 !! path_key p /\
  (at_path (root_of (vt_tree t)) p = Some u -> vkey u = path_key p /\ vdesc u = []).
Proof.
  intros HF Ho Hg Ht Hl.
  assert (H : vs_db (vt_state t) !! path_key p = db0 !! path_key p /\ keyed (root_of (vt_tree t)) []).
  { revert t Hg Ht. induction h as [|[id z] h IH] using rev_ind; intros t Hg Ht.
    - cbn in Ht. injection Ht as <-. cbn [NewVerkleTree vt_state vs_db vt_tree root_of]. split; [done|apply (keyed_fresh [])].
    - assert (Hg0 : good_paths F id2path pathof n h) by (intros id' z' Hin; apply (Hg id' z'); apply elem_of_app; by left).
      destruct (verkle_history (C:=C) F α rnd order id2path pathof HF Ho n h db0 Hg0) as (t0 & Ht0 & Hpre & _). destruct (IH t0 Hg0 Ht0) as [I1 I2].
      destruct (Hg id z) as (Hid & Hn & Hr); [apply elem_of_app; right; left|]. rewrite <- Hn in Hpre.
      destruct (verkle_put (C:=C) F α rnd order HF Ho (pathof id) (vt_state t0) _ [] _ _ z Hr Hpre) as (st' & v' & Hput & _ & Hframe & _).
      rewrite VPuts_app, Ht0 in Ht. cbn [rbind VPuts] in Ht. unfold VPut, Put in Ht. rewrite Hid in Ht. cbn [rbind] in Ht.
      change (path_key []) with "" in Hput. pose proof Hput as Hput'. unfold root_of in Hput'. rewrite Hput' in Ht. cbn [rbind] in Ht. injection Ht as <-. cbn [vt_state vt_tree].
      split.
      + rewrite Hframe; [done|]. intros r _ Hr' E. apply path_key_inj in E. rewrite E in Hl. cbn [app] in Hl. lia.
      + cbn [root_of]. by apply (put_at_keyed _ _ _ _ _ [] _ _ _ I2) in Hput. }
  destruct H as [H1 H2]. split; [done|]. intros Hu. split; [by apply H2 in Hu|].
  rewrite VPuts_Puts in Ht. apply rbind_inv in Ht as ([st r] & Ht & E). injection E as <-. cbn [vt_tree] in *.
  assert (Hd : forall q, is_Some (at_path (root_of r) q) <-> q = [] \/ exists id d, (id, d) ∈ ((fun '(id, z) => (id, Some (DInt z))) <$> h) /\ q `prefix_of` pathof id).
  { apply (Puts_domain _ _ _ _ _ _ _ _) with (2 := Ht). intros id d Hin. apply elem_of_list_fmap in Hin as ([id' z'] & [= -> ->] & Hin). apply (Hg id' z' Hin). }
  destruct (vdesc u) as [|[i c] m] eqn:E; [done|]. exfalso.
  assert (Hs : is_Some (at_path (root_of r) (p ++ [i]))).
  { rewrite at_path_app, Hu. cbn [at_path]. rewrite E. cbn [mget]. rewrite decide_True by done. done. }
  apply Hd in Hs as [Hs|(id & d & Hin & Hs)]; [by destruct p|]. apply elem_of_list_fmap in Hin as ([id' z'] & [= -> ->] & Hin).
  apply prefix_length in Hs. destruct (Hg id' z' Hin) as (_ & Hn & _). rewrite app_length in Hs. cbn in Hs. lia.
Qed.

(** ** C63 *)
(** Setting the longer one second panics. *)
Theorem C63_long_after_short (C : Curve) F α (pp : PolPP C) rnd order id2path pathof n cs db0 ls a b p q z z' :
  tree_params F α pp -> fixed_paths F id2path pathof n (sets cs) -> (forall k b m, order k b m ≡ₚ map_to_list m) ->
  do_calls pp rnd order id2path (NewLiabilitySet db0) cs = Ret ls -> db0 !! path_key p = None ->
  id2path a = Ret p -> length p = n -> LS_Get (C:=C) id2path ls a = Ret (Some z) ->
  id2path b = Ret (p ++ q) -> q <> [] ->
  LS_Set pp rnd order id2path ls b z' = Panic.
Proof.
  intros Hp [HF Hg] Ho Hr Hdb Ha Hl Hget Hb Hq. assert (Hrun : set_run pp rnd order id2path cs ls) by (split; [done|by exists db0]).
  rewrite (C44_get C F α pp rnd order id2path pathof n cs ls a p Hp (conj HF Hg) Hrun Ha Hl) in Hget. injection Hget as Hlat.
  apply (do_calls_tree F α) in Hr as [Ht _]; [|done..]. cbn [NewLiabilitySet ls_tree] in Ht.
  destruct (verkle_history (C:=C) F α rnd order id2path pathof HF Ho n _ db0 Hg) as (t & Ht' & _ & Hinv & _). rewrite Ht in Ht'. injection Ht' as <-.
  destruct Hinv as (v & Hv & Hinv); [intros E; rewrite E in Hlat; done|].
  unfold LS_Set. destruct (z' <? 0)%Z; [done|]. rewrite (ls_fanout_eq F α pp Hp HF), (proj2 Hp). unfold VPut, Put. rewrite Hb, Hv. cbn [rbind].
  pose proof (fun u => leaf_facts (C:=C) F α rnd order id2path pathof n (sets cs) db0 (ls_tree ls) p u HF Ho Hg Ht Hl) as Hleaf. rewrite Hv in Hleaf. cbn [root_of] in Hleaf.
  rewrite <- Hl in Hinv. pose proof (put_panics (C:=C) F α rnd order HF Ho p (vt_state (ls_tree ls)) v [] q z' _ _ Hinv) as Hpp. change (path_key []) with "" in Hpp. rewrite Hpp; [done| |done| |].
  - rewrite Hlat. done.
  - cbn [app]. rewrite (proj1 (Hleaf v)). done.
  - intros u Hu. exact (proj2 (Hleaf u) Hu).
Qed.
(** Setting the shorter one second returns, but then the longer one cannot be read. *)
Theorem C63_short_after_long (C : Curve) F α (pp : PolPP C) rnd order id2path pathof n cs ls a b p q z z' :
  tree_params F α pp -> fixed_paths F id2path pathof n (sets cs) -> set_run pp rnd order id2path cs ls ->
  id2path b = Ret (p ++ q) -> length (p ++ q) = n -> q <> [] -> LS_Get (C:=C) id2path ls b = Ret (Some z) ->
  id2path a = Ret p -> (0 <= z')%Z ->
  exists ls', LS_Set pp rnd order id2path ls a z' = Ret ls' /\ LS_Get (C:=C) id2path ls' b = Panic.
Proof.
  intros Hp [HF Hg] Hrun Hb Hl Hq Hget Ha Hz'.
  rewrite (C44_get C F α pp rnd order id2path pathof n cs ls b _ Hp (conj HF Hg) Hrun Hb Hl) in Hget. injection Hget as Hlat.
  destruct (set_run_verkle F α _ _ _ _ _ _ Hp HF Hrun) as [[Ho [db0 Ht]] _].
  destruct (verkle_history (C:=C) F α rnd order id2path pathof HF Ho n _ db0 Hg) as (t & Ht' & _ & Hinv & _). rewrite Ht in Ht'. injection Ht' as <-.
  destruct Hinv as (v & Hv & Hinv); [intros E; rewrite E in Hlat; done|].
  assert (Hat : exists c, at_path v (p ++ q) = Some c).
  { pose proof Hinv as H. replace n with (length (p ++ q) + 0)%nat in H by lia. apply (VInv_at F α rnd order Ho) in H. destruct (at_path v (p ++ q)); [eauto|].
    specialize (H [] Logic.eq_refl). rewrite app_nil_r in H. congruence. }
  destruct Hat as [c Hc].
  assert (Hput : exists st' v', put_at (updateInnerVertex (NewPublicParams (C:=C) (F + 2) α) rnd order) F (vt_state (ls_tree ls)) v "" p (Some (DInt z')) = Ret (st', v')).
  { destruct (decide (p = [])) as [->|Hpe]; [eexists _, _; reflexivity|]. assert (Hm : exists m, n = (length p + S m)%nat).
    { exists (length q - 1)%nat. rewrite app_length in Hl. destruct q; [done|]. cbn in *. lia. }
    destruct Hm as [m Hm]. rewrite Hm in Hinv. destruct (put_short (C:=C) F α rnd order HF Ho p (vt_state (ls_tree ls)) v [] _ _ z' m Hpe Hinv) as (st' & v' & H & _); [|eauto].
    rewrite at_path_app in Hc. destruct (at_path v p); done. }
  destruct Hput as (st' & v' & Hput). exists (MkLS (MkVTree (Some v') st') (ls_root ls)). split.
  - unfold LS_Set. destruct (Z.ltb_spec z' 0); [lia|]. rewrite (ls_fanout_eq F α pp Hp HF), (proj2 Hp). unfold VPut, Put. rewrite Ha, Hv. cbn [rbind]. rewrite Hput. done.
  - unfold LS_Get, VGet, Get. cbn [ls_tree vt_tree vt_state]. rewrite Hb. cbn [rbind].
    assert (Hc' : at_path v' (p ++ q) = Some c).
    { rewrite (put_at_frame _ _ _ _ _ _ _ _ _ (p ++ q) Hput); [done|]. intros H. apply prefix_length in H. rewrite app_length in H. destruct q; [done|]. cbn in H. lia. }
    destruct (get_at_at v' _ _ Hc') as [l El]. rewrite El. cbn [rbind]. apply get_at_Some in El as (_ & Hll & Hlook).
    destruct (put_at_last _ _ _ _ _ _ _ _ _ Hput) as (u & Hu & Hud).
    rewrite (mapM_panics _ l u); [done| | |].
    + apply elem_of_list_lookup. exists (length p). rewrite Hlook; [|rewrite app_length; destruct q; [done|]; cbn; lia]. rewrite take_app_alt by done. done.
    + rewrite Hud. done.
    + intros y _. destruct (vdata y) as [[?|key]|]; [done|apply FromBytes_not_Hang|done].
Qed.

(** The ids 0 and 7 of a dense tree with fanout 7 *)
Lemma dense7 : DigitPath 7 = Ret (digit_path 7) /\ digit_path 7 "000000000" = Ret [0]%nat /\ digit_path 7 "000000007" = Ret [0;1;0]%nat.
Proof. split; [exact (DigitPath_pow2 3 ltac:(lia))|]. done. Qed.
Definition dense7_paths (id : string) : path := match digit_path 7 id with Ret p => p | _ => [] end.
Lemma dense7_fixed id z n p : digit_path 7 id = Ret p -> length p = n -> Forall (fun i => i < 7)%nat p -> fixed_paths 7 (digit_path 7) dense7_paths n [(id, z)].
Proof. intros H1 H2 H3. split; [done|]. intros id' z' Hin. apply elem_of_list_singleton in Hin as [= -> ->]. unfold dense7_paths. rewrite H1. done. Qed.
Example C63_nonvacuous : exists (pp : PolPP toy),
  (exists ls, do_calls pp ex_rnd ex_order (digit_path 7) (NewLiabilitySet ∅) [CSet "000000000" 5] = Ret ls /\
    LS_Get (C:=toy) (digit_path 7) ls "000000000" = Ret (Some 5%Z) /\ LS_Set pp ex_rnd ex_order (digit_path 7) ls "000000007" 6 = Panic) /\
  (exists ls ls', do_calls pp ex_rnd ex_order (digit_path 7) (NewLiabilitySet ∅) [CSet "000000007" 6] = Ret ls /\
    LS_Get (C:=toy) (digit_path 7) ls "000000007" = Ret (Some 6%Z) /\ LS_Set pp ex_rnd ex_order (digit_path 7) ls "000000000" 5 = Ret ls' /\
    LS_Get (C:=toy) (digit_path 7) ls' "000000007" = Panic).
Proof.
  destruct (C61_consistent toy 7 Dense (zr 5)) as (g & pp & n & k & _ & _ & _ & Hpp); [exists 3%Z; done|]. exists pp. apply params_ok_tree in Hpp. destruct dense7 as (_ & D1 & D2).
  assert (Hset : forall id p z, digit_path 7 id = Ret p -> Forall (fun i => i < 7)%nat p -> (0 <= z)%Z ->
    exists ls, do_calls pp ex_rnd ex_order (digit_path 7) (NewLiabilitySet ∅) [CSet id z] = Ret ls /\ LS_Get (C:=toy) (digit_path 7) ls id = Ret (Some z)).
  { intros id p z Hid Hp Hz. pose proof (dense7_fixed id z (length p) p Hid Logic.eq_refl Hp) as Hf.
    destruct (C44_set_never_fails toy 7 (zr 5) pp ex_rnd ex_order (digit_path 7) dense7_paths (length p) [] (NewLiabilitySet ∅) id z Hpp Hf) as [ls Hls]; [split; [apply ex_order_perm|exists ∅; done]|done|].
    assert (Hd : do_calls pp ex_rnd ex_order (digit_path 7) (NewLiabilitySet ∅) [CSet id z] = Ret ls) by (cbn [do_calls do_call]; rewrite Hls; done).
    exists ls. split; [exact Hd|].
    rewrite (C44_get toy 7 (zr 5) pp ex_rnd ex_order (digit_path 7) dense7_paths (length p) [CSet id z] ls id p Hpp Hf); [|split; [apply ex_order_perm|exists ∅; exact Hd]|exact Hid|done].
    change (sets [CSet id z]) with ([] ++ [(id, z)]). rewrite latest_snoc. unfold dense7_paths. rewrite Hid, decide_True by done. done. }
  split.
  - destruct (Hset _ _ 5%Z D1) as (ls & H1 & H2); [repeat constructor; lia|done|]. exists ls. split; [exact H1|]. split; [exact H2|].
    apply (C63_long_after_short toy 7 (zr 5) pp ex_rnd ex_order (digit_path 7) dense7_paths 1 [CSet "000000000" 5] ∅ ls "000000000" "000000007" [0]%nat [1;0]%nat 5 6 Hpp); [|apply ex_order_perm|exact H1|apply lookup_empty|exact D1|done|exact H2|exact D2|done].
    apply (dense7_fixed "000000000" 5 1 [0]%nat); [exact D1|done|repeat constructor; lia].
  - destruct (Hset _ _ 6%Z D2) as (ls & H1 & H2); [repeat constructor; lia|done|].
    destruct (C63_short_after_long toy 7 (zr 5) pp ex_rnd ex_order (digit_path 7) dense7_paths 3 [CSet "000000007" 6] ls "000000000" "000000007" [0]%nat [1;0]%nat 6 5 Hpp) as (ls' & H3 & H4);
      [|split; [apply ex_order_perm|exists ∅; exact H1]|exact D2|done|done|exact H2|exact D1|done|].
    + apply (dense7_fixed "000000007" 6 3 [0;1;0]%nat); [exact D2|done|repeat constructor; lia].
    + exists ls, ls'. split; [exact H1|]. split; [exact H2|]. split; [exact H3|exact H4].
Qed.
Print Assumptions C63_long_after_short.
Print Assumptions C63_short_after_long.
