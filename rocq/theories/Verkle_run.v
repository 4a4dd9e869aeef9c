(** Histories of the verkle tree. *)
From Verif Require Export Verkle_facts.
Local Open Scope Zr_scope.

Lemma mapM_total {A B} (f : A -> res B) l : (forall x, x ∈ l -> exists y, f x = Ret y) -> exists ys, mapM f l = Ret ys.
Proof.
  induction l as [|x l IH]; intros H; [eexists; reflexivity|]. cbn [mapM]. destruct (H x) as [y ->]; [left|]. destruct IH as [ys ->]; [intros; apply H; by right|]. eexists. reflexivity.
Qed.

(** ** Histories *)
Section Hist.
  Variable pathof : string -> path.
  (** Some id of the history is at or below q *)
  Definition below (h : list (string * Z)) (q : path) : Prop := exists id z, (id, z) ∈ h /\ q `prefix_of` pathof id.
  (** Number of entries of the history at or below q *)
  Definition writes (h : list (string * Z)) (q : path) : nat := length (filter (fun e => q `prefix_of` pathof (fst e)) h).
  Lemma writes_snoc h id z q : writes (h ++ [(id, z)]) q = upd_count (writes h) (pathof id) q.
  Proof.
    unfold writes, upd_count. rewrite filter_app, app_length. destruct (decide (q `prefix_of` pathof id)).
    - rewrite filter_cons_True by done. cbn. lia.
    - rewrite filter_cons_False by done. cbn. lia.
  Qed.
  Lemma writes_below h q : (1 <= writes h q)%nat <-> below h q.
  Proof.
    unfold writes, below. split.
    - destruct (filter _ h) as [|[id z] l] eqn:E; [cbn; lia|]. intros _. exists id, z. assert (Hin : (id, z) ∈ filter (fun e => q `prefix_of` pathof (fst e)) h) by (rewrite E; left).
      apply elem_of_list_filter in Hin as [H1 H2]. done.
    - intros (id & z & Hin & Hp). assert (H : (id, z) ∈ filter (fun e => q `prefix_of` pathof (fst e)) h) by (by apply elem_of_list_filter). destruct (filter _ h); [by apply elem_of_nil in H|]. cbn. lia.
  Qed.
  Lemma below_snoc h id z q : below (h ++ [(id, z)]) q <-> below h q \/ q `prefix_of` pathof id.
  Proof.
    unfold below. split.
    - intros (id' & z' & Hin & Hp). apply elem_of_app in Hin as [Hin|Hin]; [eauto|]. apply elem_of_list_singleton in Hin. injection Hin as -> ->. auto.
    - intros [(id' & z' & Hin & Hp)|Hp]; [exists id', z'|exists id, z]; (split; [apply elem_of_app|done]); [by left|right; left].
  Qed.
  Lemma latest_below h p z : latest pathof h p = Some z -> below h p.
  Proof. intros H. apply latest_elem in H as (id & Hin & <-). by exists id, z. Qed.

End Hist.

Section Run.
  Context {C : Curve} (F : nat) (α : Zr) (rnd : nat -> Zr) (order : nat -> bool -> gmap nat Zr -> list (nat * Zr)) (id2path : string -> res path).
  Notation ppF := (NewPublicParams (C:=C) (F + 2) α).

  (** A sequence of Puts *)
  Fixpoint VPuts (t : VTree) (h : list (string * Z)) : res VTree :=
    match h with
    | [] => Ret t
    | (id, z) :: h => let! t := VPut ppF rnd order F id2path t id z in VPuts t h
    end.
  Lemma VPuts_app t h h' : VPuts t (h ++ h') = let! t := VPuts t h in VPuts t h'.
  Proof. revert t. induction h as [|[id z] h IH]; intros t; [done|]. cbn [app VPuts]. destruct (VPut _ _ _ _ _ _ _ _); cbn [rbind]; [apply IH|done|done]. Qed.
  Lemma VPuts_Puts t h : VPuts t h = let! '(st, r) := Puts (updateInnerVertex ppF rnd order) F id2path (vt_state t) (vt_tree t) ((fun '(id, z) => (id, Some (DInt z))) <$> h) in Ret (MkVTree r st).
  Proof.
    revert t. induction h as [|[id z] h IH]; intros t; [destruct t; done|]. rewrite fmap_cons. cbn [VPuts Puts]. unfold VPut. destruct (Put _ _ _ _ _ _ _) as [[st r]| |]; [|done|done].
    cbn [rbind]. apply IH.
  Qed.

  Variable pathof : string -> path.
  Notation below := (below pathof). Notation writes := (writes pathof).
  (** The paths of the history: one length, in range *)
  Definition good_paths (n : nat) (h : list (string * Z)) : Prop :=
    forall id z, (id, z) ∈ h -> id2path id = Ret (pathof id) /\ length (pathof id) = n /\ Forall (fun i => i < F)%nat (pathof id).

  Hypothesis HF : (Z.of_nat F + 2 < 65536)%Z.
  Hypothesis order_perm : forall n b m, order n b m ≡ₚ map_to_list m.

  (** After any history the invariant holds; the run does not fail. *)
  Lemma verkle_history n h db0 : good_paths n h ->
    exists t, VPuts (NewVerkleTree db0) h = Ret t /\
      VPre F α (C:=C) n [] (root_of (vt_tree t)) (latest pathof h) (writes h) (vs_db (vt_state t)) /\
      (h <> [] -> exists v, vt_tree t = Some v /\ VInv F α (C:=C) n [] v (latest pathof h) (writes h) (vs_db (vt_state t))) /\
      (h = [] -> t = NewVerkleTree db0).
  Proof.
    induction h as [|[id z] h IH] using rev_ind; intros Hg.
    - eexists. split; [reflexivity|]. split; [right; done|]. done.
    - destruct IH as (t & Ht & Hpre & _); [intros id' z' Hin; apply (Hg id' z'); apply elem_of_app; by left|].
      destruct (Hg id z) as (Hid & Hl & Hr); [apply elem_of_app; right; left|]. rewrite VPuts_app, Ht. cbn [rbind VPuts].
      rewrite <- Hl in Hpre. destruct (verkle_put F α rnd order HF order_perm (pathof id) (vt_state t) _ [] _ _ z Hr Hpre) as (st' & v' & Hput & Hinv & _).
      exists (MkVTree (Some v') st'). assert (Hinv' : VInv F α (C:=C) n [] v' (latest pathof (h ++ [(id, z)])) (writes (h ++ [(id, z)])) (vs_db st')).
      { rewrite Hl in Hinv. eapply (VInv_ext F α rnd order order_perm); [exact Hinv| |]; intros; symmetry; [apply latest_snoc|apply writes_snoc]. }
      split.
      + unfold VPut, Put. rewrite Hid. cbn [rbind]. change (path_key []) with "" in Hput. unfold root_of in Hput. rewrite Hput. done.
      + cbn [vt_tree vt_state root_of]. split; [left; done|]. split; [intros _; exists v'; done|]. intros H. by destruct h.
  Qed.

  (** One more Put: what happens to an existing vertex on its path *)
  Lemma verkle_step n h db0 id z t t' r i s (w : Vertex C) : good_paths n (h ++ [(id, z)]) ->
    VPuts (NewVerkleTree db0) h = Ret t -> VPuts (NewVerkleTree db0) (h ++ [(id, z)]) = Ret t' ->
    pathof id = r ++ i :: s -> below h r -> stored (vs_db (vt_state t)) (path_key r) w ->
    exists w' : Vertex C, stored (vs_db (vt_state t')) (path_key r) w' /\ v_bf w' = v_bf w /\ (s = [] -> v_V w' = bottom_V α w i z).
  Proof.
    intros Hg Ht Ht' Hp Hb Hw. destruct (Hg id z) as (Hid & Hl & Hr); [apply elem_of_app; right; left|].
    assert (Hg0 : good_paths n h) by (intros id' z' Hin; apply (Hg id' z'); apply elem_of_app; by left).
    destruct (verkle_history n h db0 Hg0) as (t0 & Ht0 & Hpre & Hinv & _). rewrite Ht in Ht0. injection Ht0 as <-.
    destruct Hinv as (v & Hv & Hinv); [intros ->; destruct Hb as (? & ? & Hin & _); by apply elem_of_nil in Hin|].
    rewrite <- Hl in Hpre, Hinv. destruct (verkle_put F α rnd order HF order_perm (pathof id) (vt_state t) _ [] _ _ z Hr Hpre) as (st' & v' & Hput & _ & _ & Hsteps & _).
    rewrite VPuts_app, Ht in Ht'. cbn [rbind VPuts] in Ht'. unfold VPut, Put in Ht'. rewrite Hid in Ht'. cbn [rbind] in Ht'.
    change (path_key []) with "" in Hput. unfold root_of in Hput. rewrite Hput in Ht'. cbn [rbind] in Ht'. injection Ht' as <-. cbn [vt_state].
    rewrite Hv in Hsteps. cbn [root_of] in Hsteps. 
    assert (Hlen : length (pathof id) = (length r + S (length s))%nat) by (rewrite Hp, app_length; done). rewrite Hlen in Hinv. apply (VInv_at F α rnd order order_perm) in Hinv.
    destruct (at_path v r) as [u|] eqn:Eu.
    - apply (Hsteps r i s u w Hp); [done| |done]. cbn [VInv] in Hinv. destruct Hinv as (_ & -> & _). done.
    - exfalso. destruct Hb as (id' & z' & Hin & [s' Hs']). destruct (Hg0 id' z' Hin) as (_ & Hl' & _).
      assert (Hls : length s' = S (length s)) by (rewrite Hs', app_length in Hl'; lia). specialize (Hinv s' Hls). cbn in Hinv.
      apply (proj1 (latest_None pathof h (r ++ s')) Hinv id' z' Hin). done.
  Qed.

  (** The vertex stored at an inner path that has ids below it *)
  Lemma verkle_at n h db0 t q : good_paths n h -> VPuts (NewVerkleTree db0) h = Ret t -> below h q -> (length q < n)%nat ->
    exists v u, vt_tree t = Some v /\ at_path v q = Some u /\
      VInv F α (C:=C) (n - length q) q u (fun p => latest pathof h (q ++ p)) (fun p => writes h (q ++ p)) (vs_db (vt_state t)) /\
    exists w : Vertex C, stored (vs_db (vt_state t)) (path_key q) w /\
      wspec F α (n - length q - 1) q (has_child u) (fun p => latest pathof h (q ++ p)) (writes h q) (vs_db (vt_state t)) w /\
      forall i, has_child u i = true <-> below h (q ++ [i]).
  Proof.
    intros Hg Ht Hb Hq. destruct (verkle_history n h db0 Hg) as (t0 & Ht0 & _ & Hinv & _). rewrite Ht in Ht0. injection Ht0 as <-.
    destruct Hinv as (v & Hv & Hinv); [intros ->; destruct Hb as (? & ? & Hin & _); by apply elem_of_nil in Hin|].
    replace n with (length q + (n - length q))%nat in Hinv by lia. apply (VInv_at F α rnd order order_perm) in Hinv. exists v.
    destruct (at_path v q) as [u|] eqn:Eu.
    - exists u. split; [done|]. split; [done|]. split; [done|]. cbn [app] in Hinv. destruct (n - length q)%nat as [|h'] eqn:E; [lia|]. cbn [VInv] in Hinv. destruct Hinv as (_ & _ & _ & Hc & w & Hw & Hspec). exists w.
      replace (S h' - 1)%nat with h' by lia. rewrite app_nil_r in Hspec. split; [done|]. split; [done|].
      intros i. specialize (Hc i). unfold has_child. destruct (mget (vdesc u) i) as [c|].
      + split; [intros _|done]. destruct Hc as [_ Hc]. destruct h' as [|h']; cbn [VInv] in Hc.
        * destruct Hc as (z & _ & Hz). by apply latest_below in Hz.
        * destruct Hc as (_ & _ & HK & _). apply writes_below in HK. exact HK.
      + split; [done|]. intros (id & z & Hin & [s Hs]). exfalso. destruct (Hg id z Hin) as (_ & Hl & _). rewrite Hs, !app_length in Hl. cbn in Hl.
        specialize (Hc s ltac:(lia)). apply (proj1 (latest_None pathof h (q ++ i :: s)) Hc id z Hin). rewrite Hs, <- app_assoc. done.
    - exfalso. destruct Hb as (id' & z' & Hin & [s' Hs']). destruct (Hg id' z' Hin) as (_ & Hl' & _).
      assert (Hls : length s' = (n - length q)%nat) by (rewrite Hs', app_length in Hl'; lia). specialize (Hinv s' Hls). cbn in Hinv.
      apply (proj1 (latest_None pathof h (q ++ s')) Hinv id' z' Hin). done.
  Qed.
  (** Get *)
  Lemma verkle_get n h db0 t id p : good_paths n h -> VPuts (NewVerkleTree db0) h = Ret t -> id2path id = Ret p -> length p = n ->
    match latest pathof h p with
    | None => VGet (C:=C) id2path t id = Ret None
    | Some z => exists ws : list (Vertex C), VGet id2path t id = Ret (Some (z, ws)) /\ length ws = n /\
        forall j, (j < n)%nat -> exists w : Vertex C, ws !! j = Some w /\ stored (vs_db (vt_state t)) (path_key (take j p)) w
    end.
  Proof.
    intros Hg Ht Hid Hl. destruct (verkle_history n h db0 Hg) as (t0 & Ht0 & _ & Hinv & H0). rewrite Ht in Ht0. injection Ht0 as <-.
    unfold VGet, Get. rewrite Hid. cbn [rbind]. destruct (decide (h = [])) as [->|Hne].
    - rewrite (H0 Logic.eq_refl). cbn. done.
    - destruct (Hinv Hne) as (v & Hv & Hinv'). rewrite Hv. pose proof Hinv' as Hall. replace n with (length p + 0)%nat in Hinv' by lia.
      apply (VInv_at F α rnd order order_perm) in Hinv'. cbn [VInv] in Hinv'. destruct (at_path v p) as [c|] eqn:Ec.
      + destruct Hinv' as (z & Hz & Hz'). rewrite app_nil_r in Hz'. rewrite Hz'. apply get_at_at in Ec as [l El]. rewrite El. apply get_at_Some in El as (_ & Hll & Hlook).
        assert (Hst : forall j, (j < n)%nat -> exists u (w : Vertex C), l !! j = Some u /\ vdata u = Some (DKey (path_key (take j p))) /\ stored (vs_db (vt_state t)) (path_key (take j p)) w).
        { intros j Hj. rewrite Hlook by lia. pose proof Hall as Hj'. replace n with (length (take j p) + S (n - j - 1))%nat in Hj' by (rewrite take_length; lia).
          apply (VInv_at F α rnd order order_perm) in Hj'. destruct (at_path v (take j p)) as [u|].
          - cbn [VInv] in Hj'. destruct Hj' as (_ & Hd & _ & _ & w & Hw & _). eauto.
          - exfalso. specialize (Hj' (drop j p)). rewrite take_drop in Hj'. rewrite Hj' in Hz'; [done|]. rewrite drop_length. lia. }
        assert (Hmap : exists ws, mapM (fun u => match vdata u with Some (DKey key) => FromBytes (C:=C) (db_get (vs_db (vt_state t)) key) | _ => Panic end) l = Ret ws /\ length ws = length l /\
          forall j, (j < n)%nat -> exists w : Vertex C, ws !! j = Some w /\ stored (vs_db (vt_state t)) (path_key (take j p)) w).
        { destruct (mapM _ l) as [ws| |] eqn:Em.
          - exists ws. pose proof (mapM_length _ _ _ Em) as Hlen. split; [done|]. split; [done|]. intros j Hj. destruct (Hst j Hj) as (u & w & Hu & Hd & Hw).
            exists w. split; [|done]. destruct (mapM_lookup _ _ _ j u Em Hu) as (w' & Hw' & Hf). rewrite Hw'. rewrite Hd in Hf. destruct Hw as (bs & Hb & _ & Hfb). unfold db_get in Hf. rewrite Hb in Hf. congruence.
          - exfalso. enough (exists ws, mapM (fun u => match vdata u with Some (DKey key) => FromBytes (C:=C) (db_get (vs_db (vt_state t)) key) | _ => Panic end) l = Ret ws) as [ws Hws] by congruence.
            apply mapM_total. intros u Hu. apply elem_of_list_lookup in Hu as [j Hu]. pose proof (lookup_lt_Some _ _ _ Hu). destruct (Hst j ltac:(lia)) as (u' & w & Hu' & Hd & (bs & Hb & _ & Hfb)). rewrite Hu in Hu'. injection Hu' as <-. rewrite Hd. unfold db_get. rewrite Hb. eauto.
          - exfalso. enough (exists ws, mapM (fun u => match vdata u with Some (DKey key) => FromBytes (C:=C) (db_get (vs_db (vt_state t)) key) | _ => Panic end) l = Ret ws) as [ws Hws] by congruence.
            apply mapM_total. intros u Hu. apply elem_of_list_lookup in Hu as [j Hu]. pose proof (lookup_lt_Some _ _ _ Hu). destruct (Hst j ltac:(lia)) as (u' & w & Hu' & Hd & (bs & Hb & _ & Hfb)). rewrite Hu in Hu'. injection Hu' as <-. rewrite Hd. unfold db_get. rewrite Hb. eauto. }
        destruct Hmap as (ws & Hmap & Hws & Hws'). cbn [rbind]. rewrite Hmap. cbn [rbind]. rewrite Hz. exists ws. split; [done|]. split; [lia|done].
      + rewrite <- (app_nil_r p), (Hinv' [] Logic.eq_refl), app_nil_r. rewrite (get_at_None _ _ Ec). cbn. done.
  Qed.
End Run.

(** The vertices of a sparse tree are at the prefixes of the paths put *)
Lemma Puts_domain {D St} (upd : callback D St) F id2path (pathof : string -> path) (h : list (string * option D)) : forall st0 st t,
  (forall id d, (id, d) ∈ h -> id2path id = Ret (pathof id)) -> Puts upd F id2path st0 None h = Ret (st, t) -> forall q,
  is_Some (at_path (root_of t) q) <-> q = [] \/ exists id d, (id, d) ∈ h /\ q `prefix_of` pathof id.
Proof.
  induction h as [|[id d] h IH] using rev_ind; intros st0 st t Hh H q.
  - cbn in H. injection H as <- <-. split.
    + destruct q; [auto|]. intros [? [=]].
    + intros [->|(id & d & Hin & _)]; [eexists; reflexivity|by apply elem_of_nil in Hin].
  - rewrite Puts_snoc in H. apply rbind_inv in H as ([st1 t1] & H1 & H). apply Put_inv in H as (p & v' & Hp & H & ->). cbn [root_of].
    rewrite (Hh id d) in Hp by (apply elem_of_app; right; left). injection Hp as <-.
    specialize (IH st0 st1 t1 (fun id' d' Hin => Hh id' d' ltac:(apply elem_of_app; by left)) H1 q). split.
    + intros Hq. destruct (decide (q `prefix_of` pathof id)) as [Hpre|Hpre].
      * right. exists id, d. split; [apply elem_of_app; right; left|done].
      * rewrite (put_at_frame _ _ _ _ _ _ _ _ _ q H Hpre) in Hq. apply IH in Hq as [->|(id' & d' & Hin & Hpre')]; [auto|]. right. exists id', d'. split; [apply elem_of_app; by left|done].
    + intros [->|(id' & d' & Hin & Hpre)]; [eexists; reflexivity|]. destruct (decide (q `prefix_of` pathof id)) as [Hq|Hq].
      * destruct (put_at_prefix _ _ _ _ _ _ _ _ _ q H Hq) as [u ->]. eauto.
      * rewrite (put_at_frame _ _ _ _ _ _ _ _ _ q H Hq). apply IH. right. exists id', d'. split; [|done]. apply elem_of_app in Hin as [Hin|Hin]; [done|]. apply elem_of_list_singleton in Hin. injection Hin as -> ->. done.
Qed.
