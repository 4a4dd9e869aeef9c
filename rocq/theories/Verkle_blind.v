(** Blinding factors of the vertices of a verkle tree: which random value each vertex takes, and that all else is
    independent of the random values. *)
From Verif Require Export Verkle_run.
Local Open Scope Zr_scope.

(** Number of Puts before the first one at or below q *)
Fixpoint first_put (pathof : string -> path) (ids : list string) (q : path) : nat :=
  match ids with
  | [] => O
  | id :: ids => if decide (q `prefix_of` pathof id) then O else S (first_put pathof ids q)
  end.
(** The random value taken by the vertex at q: each Put of a path of n entries draws n values, bottom-up *)
Definition birth (pathof : string -> path) (n : nat) (ids : list string) (q : path) : nat :=
  (n * first_put pathof ids q + (n - 1 - length q))%nat.
(** The path that takes random value number t *)
Definition taker (pathof : string -> path) (n : nat) (ids : list string) (t : nat) : path :=
  take (n - 1 - t mod n) (pathof (nth (t / n) ids EmptyString)).

Section Birth.
  Context (pathof : string -> path) (n : nat).
  Lemma first_put_lookup ids q : (exists id, id ∈ ids /\ q `prefix_of` pathof id) -> exists id, ids !! first_put pathof ids q = Some id /\ q `prefix_of` pathof id.
  Proof.
    induction ids as [|id ids IH]; intros (id' & Hin & Hq); [by apply elem_of_nil in Hin|]. cbn [first_put]. destruct (decide (q `prefix_of` pathof id)) as [H|H]; [exists id; done|].
    apply elem_of_cons in Hin as [->|Hin]; [done|]. apply IH. eauto.
  Qed.
  Lemma first_put_snoc_old ids id q : (exists id, id ∈ ids /\ q `prefix_of` pathof id) -> first_put pathof (ids ++ [id]) q = first_put pathof ids q.
  Proof.
    induction ids as [|id0 ids IH]; intros (id' & Hin & Hq); [by apply elem_of_nil in Hin|]. cbn [first_put app]. destruct (decide (q `prefix_of` pathof id0)) as [H|H]; [done|].
    apply elem_of_cons in Hin as [->|Hin]; [done|]. f_equal. apply IH. eauto.
  Qed.
  Lemma first_put_snoc_new ids id q : (forall id, id ∈ ids -> ~ q `prefix_of` pathof id) -> q `prefix_of` pathof id -> first_put pathof (ids ++ [id]) q = length ids.
  Proof.
    induction ids as [|id0 ids IH]; intros Hn Hq; cbn [first_put app length]; [by rewrite decide_True|]. rewrite decide_False by (apply Hn; left). f_equal. apply IH; [|done]. intros. apply Hn. by right.
  Qed.
  Lemma birth_bound ids q : (exists id, id ∈ ids /\ q `prefix_of` pathof id) -> (length q < n)%nat -> (birth pathof n ids q < n * length ids)%nat.
  Proof.
    intros H Hq. apply first_put_lookup in H as (id & Hl & _). apply lookup_lt_Some in Hl. unfold birth. nia.
  Qed.
  Lemma taker_birth ids q : (exists id, id ∈ ids /\ q `prefix_of` pathof id) -> (length q < n)%nat -> taker pathof n ids (birth pathof n ids q) = q.
  Proof.
    intros H Hq. apply first_put_lookup in H as (id & Hl & [s Hs]). unfold taker, birth.
    assert (Hd : ((n * first_put pathof ids q + (n - 1 - length q)) / n = first_put pathof ids q)%nat).
    { rewrite Nat.mul_comm, Nat.div_add_l by lia. rewrite Nat.div_small by lia. lia. }
    assert (Hm : ((n * first_put pathof ids q + (n - 1 - length q)) mod n = n - 1 - length q)%nat).
    { rewrite Nat.add_comm, Nat.mul_comm, Nat.mod_add, Nat.mod_small by lia. done. }
    rewrite Hd, Hm. rewrite (nth_lookup_Some _ _ _ _ Hl), Hs. replace (n - 1 - (n - 1 - length q))%nat with (length q) by lia. apply take_app.
  Qed.
End Birth.

Section Step.
  Context {C : Curve} (F : nat) (α : Zr) (rnd : nat -> Zr) (order : nat -> bool -> gmap nat Zr -> list (nat * Zr)) (id2path : string -> res path) (pathof : string -> path).
  Notation below := (below pathof).
  Hypothesis HF : (Z.of_nat F + 2 < 65536)%Z.
  Hypothesis order_perm : forall n b m, order n b m ≡ₚ map_to_list m.

  Lemma below_ids h q : below h q <-> exists id, id ∈ h.*1 /\ q `prefix_of` pathof id.
  Proof.
    split.
    - intros (id & z & Hin & Hq). exists id. split; [|done]. apply elem_of_list_fmap. exists (id, z). done.
    - intros (id & Hin & Hq). apply elem_of_list_fmap in Hin as ([id' z] & -> & Hin). exists id', z. done.
  Qed.

  (** One more Put: random values drawn, vertices created, vertices untouched *)
  Lemma verkle_draw n h db0 id z t t' : good_paths F id2path pathof n (h ++ [(id, z)]) ->
    VPuts (C:=C) F α rnd order id2path (NewVerkleTree db0) h = Ret t -> VPuts (C:=C) F α rnd order id2path (NewVerkleTree db0) (h ++ [(id, z)]) = Ret t' ->
    vs_tick (vt_state t') = (vs_tick (vt_state t) + n)%nat /\
    (forall q, q `prefix_of` pathof id -> (length q < n)%nat -> ~ below h q ->
      exists w : Vertex C, stored (vs_db (vt_state t')) (path_key q) w /\ v_bf w = rnd (vs_tick (vt_state t) + (n - 1 - length q))%nat) /\
    (forall q, ~ q `prefix_of` pathof id -> vs_db (vt_state t') !! path_key q = vs_db (vt_state t) !! path_key q).
  Proof.
    intros Hg Ht Ht'. destruct (Hg id z) as (Hid & Hl & Hr); [apply elem_of_app; right; left|].
    assert (Hg0 : good_paths F id2path pathof n h) by (intros id' z' Hin; apply (Hg id' z'); apply elem_of_app; by left).
    destruct (verkle_history (C:=C) F α rnd order id2path pathof HF order_perm n h db0 Hg0) as (t0 & Ht0 & Hpre & Hinv & Hnil). rewrite Ht in Ht0. injection Ht0 as <-.
    rewrite <- Hl in Hpre. destruct (verkle_put (C:=C) F α rnd order HF order_perm (pathof id) (vt_state t) _ [] _ _ z Hr Hpre) as (st' & v' & Hput & _ & Hframe & _ & Htick & Hnew).
    rewrite VPuts_app, Ht in Ht'. cbn [rbind VPuts] in Ht'. unfold VPut, Put in Ht'. rewrite Hid in Ht'. cbn [rbind] in Ht'.
    change (path_key []) with "" in Hput. unfold root_of in Hput. rewrite Hput in Ht'. cbn [rbind] in Ht'. injection Ht' as <-. cbn [vt_state].
    split; [by rewrite Htick, Hl|]. split.
    - intros q [s Hs] Hq Hb. destruct s as [|i s]; [rewrite Hs, app_nil_r in Hl; lia|]. destruct (Hnew q i s Hs) as (w & Hw & Hbf).
      + destruct (decide (h = [])) as [->|Hne].
        * rewrite (Hnil Logic.eq_refl). cbn. destruct q; done.
        * destruct (Hinv Hne) as (v & Hv & Hi). rewrite Hv. cbn [root_of]. replace n with (length q + S (n - length q - 1))%nat in Hi by lia.
          apply (VInv_at (C:=C) F α rnd order order_perm) in Hi. destruct (at_path v q) as [u|]; [|done]. cbn [VInv] in Hi. destruct Hi as (_ & _ & HK & _). rewrite app_nil_r in HK. apply writes_below in HK. done.
      + exists w. split; [done|]. rewrite Hbf. do 2 f_equal. rewrite Hs, app_length in Hl. cbn [length] in Hl. lia.
    - intros q Hq. apply Hframe. intros r Hr' _ E. apply path_key_inj in E. cbn [app] in E. subst. done.
  Qed.

  (** The random values: their number, and which one is the blinding factor of a vertex *)
  Lemma verkle_births n h db0 t : good_paths F id2path pathof n h -> VPuts (C:=C) F α rnd order id2path (NewVerkleTree db0) h = Ret t ->
    vs_tick (vt_state t) = (n * length h)%nat /\
    forall q, below h q -> (length q < n)%nat -> exists w : Vertex C, stored (vs_db (vt_state t)) (path_key q) w /\ v_bf w = rnd (birth pathof n h.*1 q).
  Proof.
    revert t. induction h as [|[id z] h IH] using rev_ind; intros t' Hg Ht'.
    - cbn in Ht'. injection Ht' as <-. split; [cbn; lia|]. intros q (? & ? & Hin & _). by apply elem_of_nil in Hin.
    - assert (Hg0 : good_paths F id2path pathof n h) by (intros id' z' Hin; apply (Hg id' z'); apply elem_of_app; by left).
      destruct (verkle_history (C:=C) F α rnd order id2path pathof HF order_perm n h db0 Hg0) as (t & Ht & _). destruct (IH t Hg0 Ht) as [I1 I2].
      destruct (verkle_draw n h db0 id z t t' Hg Ht Ht') as (D1 & D2 & D3). destruct (Hg id z) as (_ & Hl & _); [apply elem_of_app; right; left|].
      split; [rewrite D1, I1, app_length; cbn [length]; lia|]. intros q Hb Hq. rewrite fmap_app. cbn [fmap list_fmap]. unfold birth.
      destruct (decide (q `prefix_of` pathof id)) as [Hp|Hp].
      + destruct (decide (1 <= writes pathof h q)%nat) as [Hw|Hw].
        * apply writes_below in Hw. destruct (I2 q Hw Hq) as (w & Hst & Hbf). destruct Hp as [s Hs]. destruct s as [|i s]; [rewrite Hs, app_nil_r in Hl; lia|].
          destruct (verkle_step (C:=C) F α rnd order id2path pathof HF order_perm n h db0 id z t t' q i s w Hg Ht Ht' Hs Hw Hst) as (w' & Hst' & Hbf' & _).
          exists w'. split; [done|]. rewrite Hbf', Hbf. rewrite first_put_snoc_old by (by apply below_ids). done.
        * rewrite writes_below in Hw. destruct (D2 q Hp Hq Hw) as (w & Hst & Hbf). exists w. split; [done|]. rewrite Hbf, I1. rewrite first_put_snoc_new; [by rewrite fmap_length| |done].
          intros id' Hin Hq'. apply Hw. apply below_ids. eauto.
      + apply below_snoc in Hb as [Hb|Hb]; [|done]. destruct (I2 q Hb Hq) as (w & Hst & Hbf). exists w. split; [apply (stored_db (vs_db (vt_state t))); [by apply D3|done]|].
        rewrite Hbf, first_put_snoc_old by (by apply below_ids). done.
  Qed.
End Step.

(** ** Two runs of the same history *)
Section Two.
  Context {C : Curve} (F : nat) (α : Zr) (id2path : string -> res path) (pathof : string -> path).
  Hypothesis HF : (Z.of_nat F + 2 < 65536)%Z.
  Context (rnd1 rnd2 : nat -> Zr) (order1 order2 : nat -> bool -> gmap nat Zr -> list (nat * Zr)).
  Hypothesis perm1 : forall n b m, order1 n b m ≡ₚ map_to_list m.
  Hypothesis perm2 : forall n b m, order2 n b m ≡ₚ map_to_list m.
  Notation below := (below pathof).
  (** Same contents; the commitments differ by the blinding only *)
  Definition same_but_blinding (w1 w2 : Vertex C) (b1 b2 : Zr) : Prop :=
    v_values w1 = v_values w2 /\ v_sum w1 = v_sum w2 /\ v_bf w1 = b1 /\ v_bf w2 = b2 /\
    gadd (v_V w1) (gmul (b2 * α ^ (F + 2)) (gen1 C)) = gadd (v_V w2) (gmul (b1 * α ^ (F + 2)) (gen1 C)).

  Lemma commit_blind (w1 w2 : Vertex C) : v_values w1 = v_values w2 -> v_sum w1 = v_sum w2 ->
    Commit (NewPublicParams (F + 2) α) (values_vec F w1) = Ret (v_V w1) -> Commit (NewPublicParams (F + 2) α) (values_vec F w2) = Ret (v_V w2) ->
    gadd (v_V w1) (gmul (v_bf w2 * α ^ (F + 2)) (gen1 C)) = gadd (v_V w2) (gmul (v_bf w1 * α ^ (F + 2)) (gen1 C)).
  Proof.
    intros Hv Hs. rewrite !commit_spec by (rewrite ?values_vec_length; lia). intros [= <-] [= <-]. unfold commitment.
    assert (E : forall w : Vertex C, dot (values_vec F w) (pows α 1 (F + 2)) = dot (((fun j => default 0 (v_values w !! j)) <$> seq 0 F) ++ [v_sum w]) (pows α 1 (F + 1)) + v_bf w * α ^ (F + 2)).
    { intros w. unfold values_vec. change [v_sum w; v_bf w] with ([v_sum w] ++ [v_bf w]). rewrite app_assoc. replace (F + 2)%nat with (F + 1 + 1)%nat at 1 by lia. rewrite pows_app.
      rewrite dot_app by (rewrite app_length, fmap_length, seq_length, pows_length; cbn [length]; lia). f_equal. unfold pows. cbn [seq fmap list_fmap dot].
      replace (1 + (F + 1))%nat with (F + 2)%nat by lia. ring. }
    rewrite !E, Hv, Hs. module.
  Qed.

  Lemma same_runs n h db1 db2 t1 t2 : good_paths F id2path pathof n h ->
    VPuts (C:=C) F α rnd1 order1 id2path (NewVerkleTree db1) h = Ret t1 -> VPuts (C:=C) F α rnd2 order2 id2path (NewVerkleTree db2) h = Ret t2 ->
    forall q, below h q -> (length q < n)%nat -> exists w1 w2 : Vertex C,
      stored (vs_db (vt_state t1)) (path_key q) w1 /\ stored (vs_db (vt_state t2)) (path_key q) w2 /\
      same_but_blinding w1 w2 (rnd1 (birth pathof n h.*1 q)) (rnd2 (birth pathof n h.*1 q)).
  Proof.
    revert t1 t2. induction h as [|[id z] h IH] using rev_ind; intros t1 t2 Hg Ht1 Ht2 q Hb Hq; [destruct Hb as (? & ? & Hin & _); by apply elem_of_nil in Hin|].
    assert (Hg0 : good_paths F id2path pathof n h) by (intros id' z' Hin; apply (Hg id' z'); apply elem_of_app; by left).
    destruct (verkle_at (C:=C) F α rnd1 order1 id2path pathof HF perm1 n _ db1 t1 q Hg Ht1 Hb Hq) as (_ & u1 & _ & _ & _ & w1 & Hw1 & (A1 & A2 & A3) & Ac).
    destruct (verkle_at (C:=C) F α rnd2 order2 id2path pathof HF perm2 n _ db2 t2 q Hg Ht2 Hb Hq) as (_ & u2 & _ & _ & _ & w2 & Hw2 & (B1 & B2 & B3) & Bc).
    destruct (verkle_births (C:=C) F α rnd1 order1 id2path pathof HF perm1 n _ db1 t1 Hg Ht1) as [_ R1]. destruct (R1 q Hb Hq) as (w & Hw & Hbf1). rewrite (stored_fun _ _ _ _ Hw Hw1) in Hbf1. clear w Hw R1.
    destruct (verkle_births (C:=C) F α rnd2 order2 id2path pathof HF perm2 n _ db2 t2 Hg Ht2) as [_ R2]. destruct (R2 q Hb Hq) as (w & Hw & Hbf2). rewrite (stored_fun _ _ _ _ Hw Hw2) in Hbf2. clear w Hw R2.
    assert (Hvals : v_values w1 = v_values w2).
    { apply map_eq. intros i. rewrite A2, B2. destruct (has_child u1 i) eqn:E1, (has_child u2 i) eqn:E2; try done.
      - apply Ac, Bc in E1. congruence.
      - apply Bc, Ac in E2. congruence. }
    assert (Hsum : v_sum w1 = v_sum w2) by (by rewrite A1, B1).
    exists w1, w2. split; [done|]. split; [done|]. split; [done|]. split; [done|]. split; [done|]. split; [done|]. rewrite <- Hbf1, <- Hbf2.
    destruct (n - length q - 1)%nat as [|m] eqn:Em.
    - (* above the leaves *)
      destruct A3 as (_ & _ & A3), B3 as (_ & _ & B3). destruct (decide (1 <= writes pathof h q)%nat) as [Hw|Hw].
      + apply writes_below in Hw.
        destruct (verkle_history (C:=C) F α rnd1 order1 id2path pathof HF perm1 n h db1 Hg0) as (s1 & Hs1 & _). destruct (verkle_history (C:=C) F α rnd2 order2 id2path pathof HF perm2 n h db2 Hg0) as (s2 & Hs2 & _).
        destruct (IH s1 s2 Hg0 Hs1 Hs2 q Hw Hq) as (x1 & x2 & Hx1 & Hx2 & X1 & X2 & X3 & X4 & X5).
        destruct (decide (q `prefix_of` pathof id)) as [[s Hs]|Hp].
        * destruct (Hg id z) as (_ & Hl & _); [apply elem_of_app; right; left|]. rewrite Hs, app_length in Hl. destruct s as [|i [|? ?]]; cbn [length] in Hl; [lia| |lia].
          destruct (verkle_step (C:=C) F α rnd1 order1 id2path pathof HF perm1 n h db1 id z s1 t1 q i [] x1 Hg Hs1 Ht1 Hs Hw Hx1) as (y1 & Hy1 & Hb1 & HV1). rewrite (stored_fun _ _ _ _ Hy1 Hw1) in *. clear y1 Hy1.
          destruct (verkle_step (C:=C) F α rnd2 order2 id2path pathof HF perm2 n h db2 id z s2 t2 q i [] x2 Hg Hs2 Ht2 Hs Hw Hx2) as (y2 & Hy2 & Hb2 & HV2). rewrite (stored_fun _ _ _ _ Hy2 Hw2) in *. clear y2 Hy2.
          rewrite HV1, HV2, Hb1, Hb2, X3, X4 by done. unfold bottom_V. rewrite X1, X2. clear -X5. cbv zeta.
          match goal with |- gadd (gadd (gadd _ ?a) ?b) _ = _ => generalize a, b end. intros a b.
          transitivity (gadd (gadd (gadd (v_V x1) (gmul (rnd2 (birth pathof n h.*1 q) * α ^ (F + 2)) (gen1 C))) a) b); [module|]. rewrite X5. module.
        * destruct (verkle_draw (C:=C) F α rnd1 order1 id2path pathof HF perm1 n h db1 id z s1 t1 Hg Hs1 Ht1) as (_ & _ & D1). destruct (verkle_draw (C:=C) F α rnd2 order2 id2path pathof HF perm2 n h db2 id z s2 t2 Hg Hs2 Ht2) as (_ & _ & D2).
          apply (stored_db _ (vs_db (vt_state t1))) in Hx1; [|by apply D1]. apply (stored_db _ (vs_db (vt_state t2))) in Hx2; [|by apply D2].
          rewrite <- (stored_fun _ _ _ _ Hx1 Hw1), <- (stored_fun _ _ _ _ Hx2 Hw2), X3, X4. done.
      + assert (H1 : writes pathof (h ++ [(id, z)]) q = 1%nat).
        { apply writes_below in Hb. rewrite writes_snoc in Hb |- *. unfold upd_count in *. destruct (decide _); lia. }
        apply commit_blind; auto.
    - destruct A3 as (_ & A3 & _), B3 as (_ & B3 & _). apply commit_blind; auto.
  Qed.
End Two.

(** ** Two trees with the same commitments V *)
Section Digests.
  Context {C : Curve} (F : nat) (α : Zr) (id2path : string -> res path) (pathof : string -> path).
  Hypothesis HF : (Z.of_nat F + 2 < 65536)%Z.
  Context (rnd1 rnd2 : nat -> Zr) (order1 order2 : nat -> bool -> gmap nat Zr -> list (nat * Zr)).
  Hypothesis perm1 : forall n b m, order1 n b m ≡ₚ map_to_list m.
  Hypothesis perm2 : forall n b m, order2 n b m ≡ₚ map_to_list m.
  (** The commitments W are then the same, too. *)
  Lemma same_digests n h1 h2 db1 db2 t1 t2 : good_paths F id2path pathof n h1 -> good_paths F id2path pathof n h2 -> h1.*1 = h2.*1 ->
    VPuts (C:=C) F α rnd1 order1 id2path (NewVerkleTree db1) h1 = Ret t1 -> VPuts (C:=C) F α rnd2 order2 id2path (NewVerkleTree db2) h2 = Ret t2 ->
    (forall q (w1 w2 : Vertex C), below pathof h1 q -> (length q < n)%nat -> stored (vs_db (vt_state t1)) (path_key q) w1 -> stored (vs_db (vt_state t2)) (path_key q) w2 -> v_V w1 = v_V w2) ->
    forall m q (w1 w2 : Vertex C), below pathof h1 q -> (length q + S m = n)%nat -> stored (vs_db (vt_state t1)) (path_key q) w1 -> stored (vs_db (vt_state t2)) (path_key q) w2 -> v_W w1 = v_W w2.
  Proof.
    intros Hg1 Hg2 Hids Ht1 Ht2 HV. assert (Hbb : forall q, below pathof h1 q <-> below pathof h2 q) by (intros q; rewrite !below_ids, Hids; done).
    induction m as [|m IH]; intros q w1 w2 Hb Hq Hw1 Hw2;
      destruct (verkle_at (C:=C) F α rnd1 order1 id2path pathof HF perm1 n _ db1 t1 q Hg1 Ht1 Hb ltac:(lia)) as (_ & u1 & _ & _ & _ & x1 & Hx1 & (A1 & A2 & A3) & Ac);
      destruct (verkle_at (C:=C) F α rnd2 order2 id2path pathof HF perm2 n _ db2 t2 q Hg2 Ht2 (proj1 (Hbb q) Hb) ltac:(lia)) as (_ & u2 & _ & _ & _ & x2 & Hx2 & (B1 & B2 & B3) & Bc);
      rewrite (stored_fun _ _ _ _ Hx1 Hw1) in *; rewrite (stored_fun _ _ _ _ Hx2 Hw2) in *; clear x1 x2 Hx1 Hx2.
    - replace (n - length q - 1)%nat with 0%nat in * by lia. destruct A3 as (_ & -> & _), B3 as (_ & -> & _). done.
    - replace (n - length q - 1)%nat with (S m) in * by lia. destruct A3 as (D1 & _ & W1 & -> & E1), B3 as (D2 & _ & W2 & -> & E2).
      assert (Hd : digests_vec F w1 = digests_vec F w2).
      { unfold digests_vec. f_equal. apply list_fmap_ext. intros _ i _. specialize (D1 i). specialize (D2 i). destruct (has_child u1 i) eqn:X1, (has_child u2 i) eqn:X2.
        - destruct D1 as (c1 & Hc1 & ->), D2 as (c2 & Hc2 & ->). cbn [default]. apply Ac in X1. unfold vertex_hash.
          rewrite (HV (q ++ [i]) c1 c2) by (done || rewrite app_length; cbn [length]; lia). rewrite (IH (q ++ [i]) c1 c2) by (done || rewrite app_length; cbn [length]; lia). done.
        - apply Ac, Hbb, Bc in X1. congruence.
        - apply Bc, Hbb, Ac in X2. congruence.
        - rewrite D1, D2. done. }
      rewrite Hd in E1. congruence.
  Qed.
End Digests.
