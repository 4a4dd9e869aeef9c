(** Property C80: a liability proof reveals nothing about the other amounts.
    Specification of "reveals nothing": [same_messages] in Hiding.v. *)
From Verif Require Import Hiding Prop_hiding Prop_eqhiding Prop_rangehiding Prop_treehiding Verkle_blind Pol_run Pol_chain Prop_set Prop_verkle Prop_range Prop_sum Prop_poe Prop_liability Toy.
Local Open Scope Zr_scope.

(** ** Several messages *)
Lemma sm_ext {K Π} (shape : K -> Prop) (good : Π -> Prop) (r s r' s' : K -> res Π) : (forall κ, shape κ -> r κ = s κ) -> (forall κ, shape κ -> r' κ = s' κ) ->
  same_messages shape good s s' -> same_messages shape good r r'.
Proof.
  intros E E' (φ & ψ & H). exists φ, ψ. intros κ π Hκ Hπ. destruct (H κ π Hκ Hπ) as [H1 H2]. rewrite (E κ Hκ), (E' κ Hκ). split; intros R.
  - destruct (H1 R) as (A & B & D). rewrite (E' _ A). done.
  - destruct (H2 R) as (A & B & D). rewrite (E _ A). done.
Qed.
Lemma sm_weaken {K Π} (shape shape' : K -> Prop) (good good' : Π -> Prop) (r r' : K -> res Π) : (forall κ, shape' κ <-> shape κ) -> (forall π, good' π -> good π) ->
  same_messages shape good r r' -> same_messages shape' good' r r'.
Proof.
  intros E G (φ & ψ & H). exists φ, ψ. intros κ π Hκ Hπ. apply E in Hκ. destruct (H κ π Hκ (G _ Hπ)) as [H1 H2]. rewrite !E. done.
Qed.
Lemma sm_map {K Π Π'} (f : Π -> Π') (shape : K -> Prop) (good : Π -> Prop) (good' : Π' -> Prop) (r r' : K -> res Π) : (forall π, good' (f π) -> good π) ->
  same_messages shape good r r' -> same_messages shape good' (fun κ => let! x := r κ in Ret (f x)) (fun κ => let! x := r' κ in Ret (f x)).
Proof.
  intros G (φ & ψ & H). exists φ, ψ. intros κ π Hκ Hπ. split; intros R; apply rbind_inv in R as (x & R & E); injection E as <-; destruct (H κ x Hκ (G x Hπ)) as [H1 H2].
  - destruct (H1 R) as (A & B & D). rewrite B. done.
  - destruct (H2 R) as (A & B & D). rewrite B. done.
Qed.
Lemma sm_pair {K1 K2 Π1 Π2} (s1 : K1 -> Prop) (s2 : K2 -> Prop) (g1 : Π1 -> Prop) (g2 : Π2 -> Prop) r1 r1' r2 r2' : same_messages s1 g1 r1 r1' -> same_messages s2 g2 r2 r2' ->
  same_messages (fun κ => s1 κ.1 /\ s2 κ.2) (fun π => g1 π.1 /\ g2 π.2) (fun κ => let! x := r1 κ.1 in let! y := r2 κ.2 in Ret (x, y)) (fun κ => let! x := r1' κ.1 in let! y := r2' κ.2 in Ret (x, y)).
Proof.
  intros (φ1 & ψ1 & H1) (φ2 & ψ2 & H2). exists (fun κ => (φ1 κ.1, φ2 κ.2)), (fun κ => (ψ1 κ.1, ψ2 κ.2)). intros [κ1 κ2] [π1 π2] [S1 S2] [G1 G2]. cbn [fst snd] in *.
  destruct (H1 κ1 π1 S1 G1) as [A1 B1], (H2 κ2 π2 S2 G2) as [A2 B2]. split; intros R; apply rbind_inv in R as (x & R1 & R); apply rbind_inv in R as (y & R2 & R); injection R as -> ->.
  - destruct (A1 R1) as (A & B & D), (A2 R2) as (A' & B' & D'). rewrite B. cbn [rbind]. rewrite B', D, D'. done.
  - destruct (B1 R1) as (A & B & D), (B2 R2) as (A' & B' & D'). rewrite B. cbn [rbind]. rewrite B', D, D'. done.
Qed.
(** One message after the other, each with random values of its own *)
Fixpoint run_list {K Π} (rs : list (K -> res Π)) (κs : list K) : res (list Π) :=
  match rs, κs with
  | [], [] => Ret []
  | r :: rs, κ :: κs => let! x := r κ in let! xs := run_list rs κs in Ret (x :: xs)
  | _, _ => Panic
  end.
Lemma sm_list {K Π} (shape : K -> Prop) (l : list ((Π -> Prop) * (K -> res Π) * (K -> res Π))) : Forall (fun t => same_messages shape t.1.1 t.1.2 t.2) l ->
  same_messages (fun κs => length κs = length l /\ Forall shape κs) (fun πs : list Π => forall (i : nat) (t : (Π -> Prop) * (K -> res Π) * (K -> res Π)) (π : Π), l !! i = Some t -> πs !! i = Some π -> t.1.1 π)
    (run_list ((fun t => t.1.2) <$> l)) (run_list ((fun t => t.2) <$> l)).
Proof.
  induction 1 as [|t l Ht _ IH].
  - exists id, id. intros κs πs [Hl Hs] _. destruct κs; [|done]. done.
  - destruct Ht as (φ1 & ψ1 & H1), IH as (φ2 & ψ2 & H2).
    exists (fun κs => match κs with κ :: κs => φ1 κ :: φ2 κs | [] => [] end), (fun κs => match κs with κ :: κs => ψ1 κ :: ψ2 κs | [] => [] end).
    intros [|κ κs] πs [Hl Hs] Hg; [done|]. cbn [length] in Hl. apply Forall_cons in Hs as [S1 S2]. rewrite !fmap_cons. cbn [run_list].
    split; intros R; apply rbind_inv in R as (x & R1 & R); apply rbind_inv in R as (xs & R2 & R); injection R as <-; destruct (H1 κ x S1 (Hg 0%nat t x eq_refl eq_refl)) as [A1 B1];
      destruct (H2 κs xs (conj (Nat.succ_inj _ _ Hl) S2) (fun i => Hg (S i))) as [A2 B2].
    + destruct (A1 R1) as (A & B & D), (A2 R2) as ((A' & A'') & B' & D'). rewrite B. cbn [rbind]. rewrite B', D, D'. cbn [length]. rewrite A'. split; [|done]. split; [done|]. by constructor.
    + destruct (B1 R1) as (A & B & D), (B2 R2) as ((A' & A'') & B' & D'). rewrite B. cbn [rbind]. rewrite B', D, D'. cbn [length]. rewrite A'. split; [|done]. split; [done|]. by constructor.
Qed.
Lemma mapM_seq_S {B} (f : nat -> res B) a n : mapM f (seq (S a) n) = mapM (fun i => f (S i)) (seq a n).
Proof. revert a. induction n as [|n IH]; intros a; [done|]. cbn [seq mapM]. rewrite IH. done. Qed.
Lemma mapM_run_list {A K Π} (P : A -> K -> res Π) (ws : list A) (κs : list K) d : length κs = length ws ->
  mapM (fun i => let! w := idx ws i in P w (nth i κs d)) (seq 0 (length ws)) = run_list (P <$> ws) κs.
Proof.
  revert κs. induction ws as [|w ws IH]; intros [|κ κs] H; try done. cbn [length seq mapM]. rewrite fmap_cons. cbn [run_list]. unfold idx at 1. cbn [lookup list_lookup rbind nth].
  destruct (P w κ) as [x| |]; [|done|done]. cbn [rbind]. rewrite mapM_seq_S, <- IH by (cbn in H; lia). done.
Qed.

(** ** The random values of a liability proof *)
Definition proof_coins : Type := (list RangeCoins * ((list Zr * Zr) * eqs_coins))%type.
Definition coins_of (κ : proof_coins) : ProofCoins :=
  MkPC (fun i => nth i κ.1 (MkCoins [] 0 0 0 [] [] 0 0)) κ.2.1.1 κ.2.1.2 κ.2.2.1.1 κ.2.2.1.2 κ.2.2.2.
(** n range proofs; every vector has the length the code draws. *)
Definition proof_coins_ok {C : Curve} (pp : PolPP C) (n : nat) (κ : proof_coins) : Prop :=
  (length κ.1 = n /\ Forall (coins_ok (length (rp_Gs (po_RPPP pp)))) κ.1) /\
  sum_coins_ok (length (sp_H (po_SAPP pp))) κ.2.1 /\ eqs_coins_ok (length (pe_G (po_POEPP pp))) κ.2.2.
(** The challenges that mask something are not 0; all are hashes. *)
Definition proof_good {C : Curve} (pp : PolPP C) (p : path) (m : option (Z * LiabilityProof C)) : Prop := forall z lp, m = Some (z, lp) ->
  (forall i V rp, lp_V lp !! i = Some V -> lp_RangeProofs lp !! i = Some rp -> range_good (po_RPPP pp) V rp) /\
  sum_agg_good (lp_V lp) (lp_sum lp) /\
  (forall zc m, Commit (po_PPPP pp) (zeros (po_Fanout pp + 2)) = Ret zc -> pad_to_pow2 (length p - 1) = Ret m -> eqs_good (path_equalities pp zc m p (lp_V lp)) (lp_Eq lp)).

(** ** What is not random *)
Section Determined.
  Context {C : Curve} (F : nat) (α : Zr).
  Notation cm := (commitment (C:=C) (F + 2) α).
  Notation opening d i := (gmul (open_exp (F + 2) α i d) (gen1 C)).

  Lemma opening_det d d' i : cm d = cm d' -> nth i d 0 = nth i d' 0 -> opening d i = opening d' i.
  Proof. intros E En. unfold commitment in E. apply gmul_cancel in E; [|apply gen1_neq_0]. unfold open_exp. rewrite E, En. done. Qed.

  Lemma chains_agree p (ws0 : list (Vertex C)) wl ws0' wl' p0 il z : chain F α p (ws0 ++ [wl]) z -> chain F α p (ws0' ++ [wl']) z -> p = p0 ++ [il] ->
    v_V <$> (ws0 ++ [wl]) = v_V <$> (ws0' ++ [wl']) -> v_W <$> (ws0 ++ [wl]) = v_W <$> (ws0' ++ [wl']) ->
    cm <$> (digests_vec F <$> ws0) = cm <$> (digests_vec F <$> ws0') /\
    zip_with (fun d i => nth i d 0) (digests_vec F <$> ws0) p0 = zip_with (fun d i => nth i d 0) (digests_vec F <$> ws0') p0 /\
    zip_with (fun d i => opening d i) (digests_vec F <$> ws0) p0 = zip_with (fun d i => opening d i) (digests_vec F <$> ws0') p0 /\
    zip_with (fun w i => nth i (digests_vec F w) 0) (ws0 ++ [wl]) p = zip_with (fun w i => nth i (digests_vec F w) 0) (ws0' ++ [wl']) p /\
    opening (values_vec F wl) il = opening (values_vec F wl') il.
  Proof.
    intros Hch Hch' Ep EV EW. pose proof (ch_len _ _ _ _ _ Hch) as L. pose proof (ch_len _ _ _ _ _ Hch') as L'.
    assert (Ll : length ws0 = length p0) by (rewrite Ep, !app_length in L; cbn in L; lia). assert (Ll' : length ws0' = length p0) by (rewrite Ep, !app_length in L'; cbn in L'; lia).
    assert (K : forall (ws0 : list (Vertex C)) wl, chain F α p (ws0 ++ [wl]) z -> forall j w, ws0 !! j = Some w -> exists u i, (ws0 ++ [wl]) !! S j = Some u /\ p !! j = Some i /\ p0 !! j = Some i /\ nth i (digests_vec F w) 0 = vertex_hash u /\ v_W w = Some (cm (digests_vec F w))).
    { clear -Ep. intros ws0 wl Hch j w Hw. pose proof (ch_len _ _ _ _ _ Hch) as L. assert (Ll : length ws0 = length p0) by (rewrite Ep, !app_length in L; cbn in L; lia).
      pose proof (lookup_lt_Some _ _ _ Hw) as Hj. destruct (lookup_lt_is_Some_2 (ws0 ++ [wl]) (S j)) as [u Hu]; [rewrite app_length; cbn; lia|]. destruct (lookup_lt_is_Some_2 p0 j) as [i Hi]; [lia|].
      exists u, i. assert (Hpj : p !! j = Some i) by (rewrite Ep; by apply lookup_app_l_Some). split; [done|]. split; [done|]. split; [done|].
      apply (ch_hash _ _ _ _ _ Hch j w u i); [by apply lookup_app_l_Some|done..]. }
    assert (EV' : forall j w w', (ws0 ++ [wl]) !! j = Some w -> (ws0' ++ [wl']) !! j = Some w' -> v_V w = v_V w' /\ v_W w = v_W w').
    { intros j w w' Hw Hw'. apply (f_equal (fun l => l !! j)) in EV. apply (f_equal (fun l => l !! j)) in EW. rewrite !list_lookup_fmap, Hw, Hw' in EV. rewrite !list_lookup_fmap, Hw, Hw' in EW. cbn in EV, EW. split; congruence. }
    assert (E0 : forall j w w', ws0 !! j = Some w -> ws0' !! j = Some w' -> cm (digests_vec F w) = cm (digests_vec F w') /\ forall i, p0 !! j = Some i -> nth i (digests_vec F w) 0 = nth i (digests_vec F w') 0).
    { intros j w w' Hw Hw'. destruct (K ws0 wl Hch j w Hw) as (u & i & Hu & _ & Hi & Hn & HW), (K ws0' wl' Hch' j w' Hw') as (u' & i' & Hu' & _ & Hi' & Hn' & HW').
      destruct (EV' j w w') as [_ EWj]; [by apply lookup_app_l_Some..|]. split; [congruence|]. intros i0 Hi0. assert (i0 = i) as -> by congruence. assert (i' = i) as -> by congruence.
      rewrite Hn, Hn'. unfold vertex_hash. destruct (EV' (S j) u u' Hu Hu') as [-> ->]. done. }
    assert (Ed : zip_with (fun d i => nth i d 0) (digests_vec F <$> ws0) p0 = zip_with (fun d i => nth i d 0) (digests_vec F <$> ws0') p0).
    { apply list_eq. intros j. rewrite !lookup_zip_with, !list_lookup_fmap. destruct (decide (j < length p0)%nat) as [Hj|Hj].
      - destruct (lookup_lt_is_Some_2 ws0 j) as [w Hw]; [lia|]. destruct (lookup_lt_is_Some_2 ws0' j) as [w' Hw']; [lia|]. destruct (lookup_lt_is_Some_2 p0 j) as [i Hi]; [lia|].
        rewrite Hw, Hw', Hi. cbn. f_equal. by apply (E0 j).
      - rewrite !(lookup_ge_None_2 ws0), !(lookup_ge_None_2 ws0') by lia. done. }
    destruct (ch_bottom _ _ _ _ _ Hch wl il) as (_ & B2 & B3); [apply last_snoc|rewrite Ep; apply last_snoc|].
    destruct (ch_bottom _ _ _ _ _ Hch' wl' il) as (_ & B2' & B3'); [apply last_snoc|rewrite Ep; apply last_snoc|].
    split; [|split; [|split; [|split]]].
    - apply list_eq. intros j. rewrite !list_lookup_fmap. destruct (decide (j < length p0)%nat) as [Hj|Hj].
      + destruct (lookup_lt_is_Some_2 ws0 j) as [w Hw]; [lia|]. destruct (lookup_lt_is_Some_2 ws0' j) as [w' Hw']; [lia|]. rewrite Hw, Hw'. cbn. f_equal. by apply (E0 j).
      + rewrite !(lookup_ge_None_2 ws0), !(lookup_ge_None_2 ws0') by lia. done.
    - exact Ed.
    - apply list_eq. intros j. rewrite !lookup_zip_with, !list_lookup_fmap. destruct (decide (j < length p0)%nat) as [Hj|Hj].
      + destruct (lookup_lt_is_Some_2 ws0 j) as [w Hw]; [lia|]. destruct (lookup_lt_is_Some_2 ws0' j) as [w' Hw']; [lia|]. destruct (lookup_lt_is_Some_2 p0 j) as [i Hi]; [lia|].
        rewrite Hw, Hw', Hi. cbn. f_equal. destruct (E0 j w w' Hw Hw') as [E1 E2]. apply opening_det; [done|by apply E2].
      + rewrite !(lookup_ge_None_2 ws0), !(lookup_ge_None_2 ws0') by lia. done.
    - assert (Edl : digests_vec F wl = digests_vec F wl') by (unfold digests_vec; rewrite B2, B2'; done).
      rewrite Ep, !zip_with_app by done. rewrite <- !(zip_with_fmap_l (fun (d : list Zr) i => nth i d 0) (digests_vec F)), Ed. cbn [fmap list_fmap zip_with]. rewrite Edl. done.
    - apply opening_det; [|by rewrite !nth_lookup, B3, B3'].
      pose proof (ch_ok _ _ _ _ _ Hch) as O. pose proof (ch_ok _ _ _ _ _ Hch') as O'. apply Forall_app in O as [_ O], O' as [_ O']. apply Forall_cons in O as [[O _] _], O' as [[O' _] _]. rewrite <- O, <- O'.
      apply (EV' (length p0)); [rewrite <- Ll|rewrite <- Ll']; rewrite lookup_app_r, Nat.sub_diag by lia; done.
  Qed.
End Determined.

(** ** One proof *)
Section One_proof.
  Context {C : Curve} (F : nat) (α : Zr) (k : nat) (pp : PolPP C) (p : path) (z : Z).
  Notation n := (length p).
  Notation cm := (commitment (C:=C) (F + 2) α).
  Notation opening d i := (gmul (open_exp (F + 2) α i d) (gen1 C)).
  Hypothesis (Hp : params_ok F α n k pp) (Hn : (2 <= n)%nat).
  Definition range_run (w : Vertex C) (co : RangeCoins) : res (RangeProof C) := ProveRange (po_RPPP pp) (v_V w) (Vertex_Values w (F + 1)) (v_bf w) co.
  Definition sum_run (ws : list (Vertex C)) (κ : list Zr * Zr) : res (sumProof C) := SumArgument ws (po_SAPP pp) κ.1 κ.2.
  Definition assembled Σ π V W D tp (x : list (RangeProof C) * (sumProof C * AggProof C)) : option (Z * LiabilityProof C) :=
    Some (z, MkLP Σ π x.2.1 V W D x.1 x.2.2 tp).

  Lemma prove_runs ws j zc ls id id2path ws0 wl p0 il : chain F α p ws z -> id2path id = Ret p -> VGet (C:=C) id2path (ls_tree ls) id = Ret (Some (z, ws)) ->
    poe_params (F + 2) (2 ^ j) α (po_POEPP pp) -> pad_to_pow2 (n - 1) = Ret (2 ^ j)%nat -> (n - 1 <= 2 ^ j)%nat -> Commit (po_PPPP pp) (zeros (F + 2)) = Ret zc ->
    ws = ws0 ++ [wl] -> p = p0 ++ [il] ->
    let ds := digests_vec F <$> ws0 in
    let Vl := path_V n (2 ^ j) zc (v_V <$> ws) in let Wl := path_V n (2 ^ j) zc (drop 1 (v_V <$> ws)) in
    exists π, Aggregate (po_PPPP pp) (cm <$> ds) (zip_with (fun d i => opening d i) ds p0) RO = Ret π /\
    forall κ, length κ.1 = n -> ProveLiability pp id2path (coins_of κ) ls id =
      let! x := (let! rps := run_list (range_run <$> ws) κ.1 in
                 let! se := (let! s := sum_run ws κ.2.1 in let! e := eqs_run (po_POEPP pp) poe_RO Vl Wl (path_pairs F n (2 ^ j) p ws) κ.2.2 in Ret (s, e)) in Ret (rps, se)) in
      Ret (assembled (dot (zip_with (fun d i => nth i d 0) ds p0) (agg_ro F α (cm <$> ds) <$> seq 0 (length ds))) π (v_V <$> ws) (cm <$> ds)
        (zip_with (fun w i => nth i (digests_vec F w) 0) ws p) (MkTP (opening (values_vec F wl) il) z) x).
  Proof.
    intros Hch Hid HG Hpoe Hpad Hle Hzc Ews Ep ds Vl Wl. pose proof Hch as [L Hpath Hok _ _ Hlink _ _ _].
    assert (Lp0 : length p0 = (n - 1)%nat) by (rewrite Ep, app_length; cbn; lia). assert (L0 : length ws0 = (n - 1)%nat) by (rewrite Ews, app_length in L; cbn in L; lia).
    destruct (agg_part F α n k pp Hp ds p0) as (π & Hagg & _).
    { destruct ws0; [cbn in L0; lia|done]. } { apply Forall_fmap, Forall_forall. intros w _. apply digests_vec_length. }
    { rewrite Ep in Hpath. by apply Forall_app in Hpath as [Hpath _]. } { unfold ds. rewrite fmap_length. lia. }
    exists π. split; [exact Hagg|]. intros κ Lκ. rewrite (prove_form F α k pp p ws z (coins_of κ) Hp Hn Hch ls id id2path ws0 wl p0 il Hid HG Ews Ep). fold ds.
    rewrite <- (mapM_run_list range_run ws κ.1 (MkCoins [] 0 0 0 [] [] 0 0)) by lia. rewrite L.
    change (fun i => let! w := idx ws i in range_run w (nth i κ.1 (MkCoins [] 0 0 0 [] [] 0 0)))
      with (fun i => let! w := idx ws i in ProveRange (po_RPPP pp) (v_V w) (Vertex_Values w (F + 1)) (v_bf w) (pc_range (coins_of κ) i)).
    destruct (mapM (fun i => let! w := idx ws i in ProveRange _ _ _ _ _) (seq 0 n)) as [rps| |]; [|done|done]. cbn [rbind]. rewrite Hagg. cbn [rbind].
    change (pc_w (coins_of κ)) with κ.2.1.1. change (pc_r' (coins_of κ)) with κ.2.1.2. unfold sum_run. destruct (SumArgument ws (po_SAPP pp) κ.2.1.1 κ.2.1.2) as [s| |]; [|done|done]. cbn [rbind].
    destruct (eq_pairs F α n k pp Hp j zc p ws Hpoe Hpad Hle Hzc eq_refl Hn Hpath L Hok Hlink) as (_ & _ & _ & _ & _ & _ & _ & -> & _). cbn [rbind]. unfold eqs_run.
    change (pc_eq (coins_of κ)) with κ.2.2.1.1. change (pc_r1 (coins_of κ)) with κ.2.2.1.2. change (pc_r2 (coins_of κ)) with κ.2.2.2.
    fold Vl Wl. destruct (Equalities_Prove _ _ _ _ _ _) as [e| |]; done.
  Qed.
  Lemma blind_neq_0 : α <> 0 -> rp_F (po_RPPP pp) <> gzero.
  Proof.
    intros Hα. destruct Hp as (_ & _ & _ & HPP & _ & _ & _ & _ & HrF & _). rewrite HPP, pp_G1s_lookup_lo in HrF by lia. apply (inj Some) in HrF. rewrite <- HrF. intros E. apply gmul_eq_0 in E as [E|E]; [by apply (zpow_neq_0 α (F + 1 + 1)) in Hα|by apply gen1_neq_0 in E].
  Qed.

  (** Two states with the same commitments on the path *)
  Lemma proofs_same ws ws' ls ls' id id2path : α <> 0 -> rp_H (po_RPPP pp) <> gzero -> pe_F (po_POEPP pp) <> gzero ->
    chain F α p ws z -> chain F α p ws' z -> id2path id = Ret p -> VGet (C:=C) id2path (ls_tree ls) id = Ret (Some (z, ws)) -> VGet (C:=C) id2path (ls_tree ls') id = Ret (Some (z, ws')) ->
    v_V <$> ws = v_V <$> ws' -> v_W <$> ws = v_W <$> ws' ->
    same_messages (proof_coins_ok pp n) (proof_good pp p) (fun κ => ProveLiability pp id2path (coins_of κ) ls id) (fun κ => ProveLiability pp id2path (coins_of κ) ls' id).
  Proof.
    intros Hα HH HpF Hch Hch' Hid HG HG' EV EW. destruct (eq_params F α n k pp Hp) as (j & zc & Hpoe & Hpad & Hle & Hzc).
    destruct (chain_split F α k pp p ws z Hp Hn Hch) as (ws0 & wl & p0 & il & Ews & Ep & _). destruct (chain_split F α k pp p ws' z Hp Hn Hch') as (ws0' & wl' & p0' & il' & Ews' & Ep' & _).
    assert (p0' = p0 /\ il' = il) as [-> ->] by (rewrite Ep in Ep'; apply app_inj_tail in Ep' as [-> ->]; done).
    destruct (prove_runs ws j zc ls id id2path ws0 wl p0 il Hch Hid HG Hpoe Hpad Hle Hzc Ews Ep) as (π & Hagg & R).
    destruct (prove_runs ws' j zc ls' id id2path ws0' wl' p0 il Hch' Hid HG' Hpoe Hpad Hle Hzc Ews' Ep) as (π' & Hagg' & R').
    assert (A : cm <$> (digests_vec F <$> ws0) = cm <$> (digests_vec F <$> ws0') /\
      zip_with (fun d i => nth i d 0) (digests_vec F <$> ws0) p0 = zip_with (fun d i => nth i d 0) (digests_vec F <$> ws0') p0 /\
      zip_with (fun d i => opening d i) (digests_vec F <$> ws0) p0 = zip_with (fun d i => opening d i) (digests_vec F <$> ws0') p0 /\
      zip_with (fun w i => nth i (digests_vec F w) 0) ws p = zip_with (fun w i => nth i (digests_vec F w) 0) ws' p /\
      opening (values_vec F wl) il = opening (values_vec F wl') il).
    { rewrite Ews, Ews' in *. by apply (chains_agree F α p ws0 wl ws0' wl' p0 il z). }
    destruct A as (A1 & A2 & A3 & A4 & A5). rewrite A1, A3, Hagg' in Hagg. injection Hagg as ->.
    assert (A6 : length (digests_vec F <$> ws0) = length (digests_vec F <$> ws0')).
    { apply (f_equal (@length _)) in A1. rewrite !(fmap_length cm) in A1. exact A1. }
    rewrite A1, A2, A4, A5, A6, EV in R. cbv zeta in R, R'.
    pose proof Hch as [L Hpath Hok Hr _ Hlink _ _ _]. pose proof Hch' as [L' _ Hok' Hr' _ Hlink' _ _ _].
    pose proof Hp as (EF & _ & HFan & HPP & HR & HS & _).
    eapply (sm_ext _ _ _ _ _ _); [intros κ Hκ; apply R; apply Hκ|intros κ Hκ; apply R'; apply Hκ|]. clear R R'.
    set (Vl := path_V n (2 ^ j) zc (v_V <$> ws')). set (Wl := path_V n (2 ^ j) zc (drop 1 (v_V <$> ws'))).
    (* the range proofs *)
    assert (SR : same_messages (fun κs => length κs = n /\ Forall (coins_ok (length (rp_Gs (po_RPPP pp)))) κs)
      (fun rps : list (RangeProof C) => forall i V rp, (v_V <$> ws') !! i = Some V -> rps !! i = Some rp -> range_good (po_RPPP pp) V rp) (run_list (range_run <$> ws)) (run_list (range_run <$> ws'))).
    { set (l := zip_with (fun w w' => (range_good (po_RPPP pp) (v_V w), range_run w, range_run w')) ws ws').
      assert (Ll : length l = n) by (unfold l; rewrite zip_with_length; lia).
      assert (E1 : (fun t => t.1.2) <$> l = range_run <$> ws).
      { unfold l. apply list_eq. intros i. rewrite !list_lookup_fmap, lookup_zip_with. destruct (ws !! i) eqn:E; [|done]. destruct (lookup_lt_is_Some_2 ws' i) as [w' ->]; [apply lookup_lt_Some in E; lia|]. done. }
      assert (E2 : (fun t => t.2) <$> l = range_run <$> ws').
      { unfold l. apply list_eq. intros i. rewrite !list_lookup_fmap, lookup_zip_with. destruct (ws' !! i) eqn:E; [|destruct (ws !! i); done]. destruct (lookup_lt_is_Some_2 ws i) as [w' ->]; [apply lookup_lt_Some in E; lia|]. done. }
      rewrite <- E1, <- E2. eapply sm_weaken; [| |apply sm_list].
      - intros κ. rewrite Ll. reflexivity.
      - cbv beta. intros rps Hg i t rp Ht Hrp. unfold l in Ht. apply lookup_zip_with_Some in Ht as (w & w' & -> & Hw & Hw'). cbn [fst]. apply (Hg i (v_V w) rp); [|done]. rewrite <- EV, list_lookup_fmap, Hw. done.
      - apply Forall_lookup. intros i t Ht. unfold l in Ht. apply lookup_zip_with_Some in Ht as (w & w' & -> & Hw & Hw'). cbn [fst snd]. unfold range_run.
        rewrite Forall_lookup in Hok. rewrite Forall_lookup in Hok'. rewrite Forall_lookup in Hr. rewrite Forall_lookup in Hr'.
        assert (Evw : v_V w' = v_V w) by (apply (f_equal (fun l => l !! i)) in EV; rewrite !list_lookup_fmap, Hw, Hw' in EV; cbn in EV; congruence). rewrite Evw.
        rewrite (proj1 (proj2 HR)). apply C77_range_proof; [exact HR|by apply blind_neq_0|exact HH|rewrite values_length; exact EF|by apply (Hr i)| |rewrite values_length; exact EF|by apply (Hr' i)|].
        + apply (vertex_commitment F α n k pp Hp w). by apply (Hok i).
        + rewrite <- Evw. apply (vertex_commitment F α n k pp Hp w'). by apply (Hok' i). }
    (* the sum argument *)
    assert (SS : same_messages (sum_coins_ok (length (sp_H (po_SAPP pp)))) (sum_agg_good (v_V <$> ws')) (sum_run ws) (sum_run ws')).
    { assert (EVz : forall ws, Forall (vertex_ok F α) ws -> v_V <$> ws = zip_with (commit_sum (po_SAPP pp)) ((fun v => Vertex_Values v (F + 1)) <$> ws) (v_bf <$> ws)).
      { clear -Hp. intros ws Hok. induction Hok as [|v vs Hv _ IH]; [done|]. rewrite !fmap_cons. cbn [zip_with]. rewrite IH. f_equal. apply (proj2 (vertex_commitment F α n k pp Hp v Hv)). }
      pose proof (EVz ws Hok) as Z1. pose proof (EVz ws' Hok') as Z2. unfold sum_run, SumArgument. rewrite EV, (proj1 (proj2 HS)), <- EF. rewrite EV in Z1. rewrite Z1 in Z2.
      assert (Hne : ws <> []) by (intros ->; cbn in L; lia).
      rewrite Z1. rewrite EF at 1. apply (C75_aggregated C (po_SAPP pp) k); [exact HS|by destruct ws| | |rewrite !fmap_length; done|rewrite !fmap_length; lia|rewrite !fmap_length; lia|exact Z2].
      - apply Forall_fmap. eapply Forall_impl; [exact Hok|]. intros v [_ Hv]. cbn. split; [rewrite values_length; done|done].
      - apply Forall_fmap. eapply Forall_impl; [exact Hok'|]. intros v [_ Hv]. cbn. split; [rewrite values_length; done|done]. }
    (* the equality argument *)
    destruct (eq_pairs F α n k pp Hp j zc p ws Hpoe Hpad Hle Hzc eq_refl Hn Hpath L Hok Hlink) as (P1 & P2 & P3 & P4 & P5 & P6 & P7 & _).
    destruct (eq_pairs F α n k pp Hp j zc p ws' Hpoe Hpad Hle Hzc eq_refl Hn Hpath L' Hok' Hlink') as (_ & _ & Q3 & Q4 & Q5 & Q6 & Q7 & _ & Q9).
    rewrite EV in P4, P5. fold Vl in P4, Q4, Q9. fold Wl in P5, Q5, Q9.
    assert (SE : same_messages (eqs_coins_ok (length (pe_G (po_POEPP pp)))) (eqs_good (eq_statement poe_RO (po_POEPP pp) Vl Wl (path_pairs F n (2 ^ j) p ws')))
      (eqs_run (po_POEPP pp) poe_RO Vl Wl (path_pairs F n (2 ^ j) p ws)) (eqs_run (po_POEPP pp) poe_RO Vl Wl (path_pairs F n (2 ^ j) p ws'))).
    { rewrite (proj1 (proj2 Hpoe)).
      pose proof (C76_equalities C j (F + 2) α (po_POEPP pp) poe_RO (path_pairs F n (2 ^ j) p ws) (path_pairs F n (2 ^ j) p ws') Vl Wl Hα HpF Hpoe (C28_package_oracle C) P1 P2 ltac:(rewrite P6, Q6; reflexivity) ltac:(rewrite P7, Q7; reflexivity) P4 P5 P3 Q4 Q5 Q3) as H. cbv zeta in H.
      assert (Es : eq_statement poe_RO (po_POEPP pp) Vl Wl (path_pairs F n (2 ^ j) p ws) = eq_statement poe_RO (po_POEPP pp) Vl Wl (path_pairs F n (2 ^ j) p ws')) by (unfold eq_statement; rewrite P6, P7, Q6, Q7; reflexivity).
      unfold eqs_run. rewrite Es in H |- *. exact H. }
    eapply sm_map; [|exact (sm_pair _ _ _ _ _ _ _ _ SR (sm_pair _ _ _ _ _ _ _ _ SS SE))].
    intros [rps [s e]] Hg. unfold assembled in Hg. cbn [fst snd] in *. destruct (Hg _ _ eq_refl) as (G1 & G2 & G3). cbn [lp_V lp_RangeProofs lp_sum lp_Eq] in *.
    split; [exact G1|]. split; [exact G2|]. rewrite <- (Q9 (v_V <$> ws')) by (rewrite take_ge by (rewrite fmap_length; lia); done). apply G3; [rewrite HFan; exact Hzc|exact Hpad].
  Qed.
End One_proof.

(** ** C80 *)
(** Two honest states in which id has the same amount z and the vertices on its path have the same commitments (the
    commitments are in the proof anyway): every good proof for id is made from either by as many random values. *)
Theorem C80_liability_proof (C : Curve) F α (pp : PolPP C) rnd rnd' order order' id2path pathof pathof' cs cs' ls ls' id p z :
  α <> 0 -> rp_H (po_RPPP pp) <> gzero -> pe_F (po_POEPP pp) <> gzero ->
  honest_state F α pp rnd order id2path pathof cs ls id p z -> honest_state F α pp rnd' order' id2path pathof' cs' ls' id p z ->
  path_commitments (C:=C) id2path ls id = path_commitments id2path ls' id ->
  same_messages (proof_coins_ok pp (length p)) (proof_good pp p)
    (fun κ => ProveLiability pp id2path (coins_of κ) ls id) (fun κ => ProveLiability pp id2path (coins_of κ) ls' id).
Proof.
  intros Hα HH HF Hs Hs' E. destruct (honest_chain _ _ _ _ _ _ _ _ _ _ _ _ Hs) as (Hn & Hid & [k Hp] & ws & HG & Hch & _).
  destruct (honest_chain _ _ _ _ _ _ _ _ _ _ _ _ Hs') as (_ & _ & _ & ws' & HG' & Hch' & _).
  unfold path_commitments in E. rewrite HG, HG' in E. cbn [rbind] in E. injection E as E.
  apply (proofs_same F α k pp p z Hp Hn ws ws'); try done.
  - apply (f_equal (fmap fst)) in E. rewrite <- !list_fmap_compose in E. exact E.
  - apply (f_equal (fmap snd)) in E. rewrite <- !list_fmap_compose in E. exact E.
Qed.

Lemma filter_fst {A B} (P : A -> Prop) (D : forall e : A * B, Decision (P e.1)) (D' : forall a, Decision (P a)) (h : list (A * B)) :
  length (@filter _ _ _ (fun e => P e.1) D h) = length (@filter _ _ _ P D' h.*1).
Proof.
  induction h as [|[a b] h IH]; [done|]. rewrite fmap_cons. unfold filter in *. cbn [list_filter fst]. unfold decide.
  destruct (D (a, b)), (D' a); cbn [fst] in *; try contradiction; cbn [length]; solve [exact IH|f_equal; exact IH].
Qed.
(** Everything a client sees: the root and all commitments, the proof of the total if the totals agree, and the proof of
    an amount that is the same in both sets.  φ is a permutation of the random values of the tree; given those, the
    proofs of any client with the same amount in both cannot be told apart. *)
Theorem C80_client_view (C : Curve) F α k (pp : PolPP C) order order' id2path pathof n h h' :
  α <> 0 -> rp_H (po_RPPP pp) <> gzero -> pe_F (po_POEPP pp) <> gzero -> params_ok F α n k pp -> fixed_paths F id2path pathof n h -> (2 <= n)%nat ->
  (forall k b m, order k b m ≡ₚ map_to_list m) -> (forall k b m, order' k b m ≡ₚ map_to_list m) ->
  h.*1 = h'.*1 -> Forall (fun e => 0 <= snd e)%Z h -> Forall (fun e => 0 <= snd e)%Z h' ->
  (total F n (latest pathof h) < 2 ^ 63)%Z -> (total F n (latest pathof h') < 2 ^ 63)%Z ->
  exists φ ψ : list Zr -> list Zr, forall κ, length κ = (n * length h)%nat ->
    (length (φ κ) = length κ /\ ψ (φ κ) = κ) /\ (length (ψ κ) = length κ /\ φ (ψ κ) = κ) /\
    published pp order' id2path h' (φ κ) = published pp order id2path h κ /\
    (h <> [] -> total F n (latest pathof h) = total F n (latest pathof h') -> published_with_total pp order' id2path h' (φ κ) = published_with_total pp order id2path h κ) /\
    exists ls ls', filled pp order id2path h κ = Ret ls /\ filled pp order' id2path h' (φ κ) = Ret ls' /\
    forall id z, id ∈ h.*1 -> latest pathof h (pathof id) = Some z -> latest pathof h' (pathof id) = Some z ->
      length (filter (fun i => take (n - 1) (pathof id) `prefix_of` pathof i) h.*1) = 1%nat ->
      same_messages (proof_coins_ok pp n) (proof_good pp (pathof id))
        (fun κ => ProveLiability pp id2path (coins_of κ) ls id) (fun κ => ProveLiability pp id2path (coins_of κ) ls' id).
Proof.
  intros Hα HH HpF Hp [HF Hg] Hn Ho Ho' Hids Hz Hz' Ht Ht'. pose proof (params_ok_tree _ _ _ _ _ Hp) as Hpp. pose proof (good_paths' F id2path pathof n h h' Hg Hids) as Hg'.
  exists (reblind (C:=C) F α id2path pathof n h h'), (reblind (C:=C) F α id2path pathof n h' h). intros κ Hκ.
  split; [split; [apply reblind_length|by apply reblind_back]|]. split; [split; [apply reblind_length|by apply reblind_back]|].
  destruct (published_same (C:=C) F α id2path pathof n Hα ltac:(lia) HF pp Hpp h h' Hg Hids Hz Hz' order order' Ho Ho' κ Hκ) as [E _].
  split; [exact E|]. split; [intros Hne Htot; by apply (total_same (C:=C) F α id2path pathof n pp h h' order order')|].
  destruct (same_vertices (C:=C) F α id2path pathof n Hα HF pp Hpp h h' Hg Hids Hz Hz' order order' Ho Ho' κ Hκ) as (t & t' & Hf & Hf' & Hv & Hv' & Hs).
  exists (MkLS t []), (MkLS t' []). split; [exact Hf|]. split; [exact Hf'|]. intros id z Hin L L' Honce.
  assert (Hpath : forall h0, good_paths F id2path pathof n h0 -> id ∈ h0.*1 -> id2path id = Ret (pathof id) /\ length (pathof id) = n).
  { intros h0 Hg0 Hi. apply elem_of_list_fmap in Hi as ([i x] & -> & Hi). destruct (Hg0 i x Hi) as (A & B & _). done. }
  destruct (Hpath h Hg Hin) as [Hid Hl]. rewrite <- Hl.
  assert (HS : forall order h κ t, (forall k b m, order k b m ≡ₚ map_to_list m) -> good_paths F id2path pathof n h -> (total F n (latest pathof h) < 2 ^ 63)%Z -> latest pathof h (pathof id) = Some z ->
    length (filter (fun i => take (n - 1) (pathof id) `prefix_of` pathof i) h.*1) = 1%nat -> filled pp order id2path h κ = Ret (MkLS t []) ->
    honest_state F α pp (fun t => nth t κ 0) order id2path pathof ((fun '(id, z) => CSet id z) <$> h) (MkLS t []) id (pathof id) z).
  { clear -Hp Hn HF Hid Hl. intros order h κ t Ho Hg Ht L Honce Hf. unfold honest_state, bottom_set_once, total_of. rewrite !sets_of, Hl. split; [done|]. split; [by exists k|]. split; [done|]. split; [split; [done|]; exists ∅; exact Hf|].
    split; [done|]. split; [done|]. split; [done|]. etransitivity; [|exact Honce]. apply (filter_fst (fun i => take (n - 1) (pathof id) `prefix_of` pathof i)). }
  apply (C80_liability_proof C F α pp (fun t => nth t κ 0) (fun t => nth t (reblind (C:=C) F α id2path pathof n h h' κ) 0) order order' id2path pathof pathof
    ((fun '(id, z) => CSet id z) <$> h) ((fun '(id, z) => CSet id z) <$> h') (MkLS t []) (MkLS t' []) id (pathof id) z); [done..|by apply HS|apply HS; rewrite <- ?Hids; done|].
  destruct (paths_same (C:=C) F α id2path pathof n ltac:(lia) HF h h' Hg Hids order order' Ho Ho' _ _ t t' Hv Hv' Hs id Hin) as (l & -> & ->). done.
Qed.

(** Several clients pooling what they see, each with the same amount in both sets: all their proofs together.  A client may
    ask several times. *)
Theorem C80_coalition (C : Curve) F α k (pp : PolPP C) order order' id2path pathof n h h' ids :
  α <> 0 -> rp_H (po_RPPP pp) <> gzero -> pe_F (po_POEPP pp) <> gzero -> params_ok F α n k pp -> fixed_paths F id2path pathof n h -> (2 <= n)%nat ->
  (forall k b m, order k b m ≡ₚ map_to_list m) -> (forall k b m, order' k b m ≡ₚ map_to_list m) ->
  h.*1 = h'.*1 -> Forall (fun e => 0 <= snd e)%Z h -> Forall (fun e => 0 <= snd e)%Z h' ->
  (total F n (latest pathof h) < 2 ^ 63)%Z -> (total F n (latest pathof h') < 2 ^ 63)%Z ->
  Forall (fun id => id ∈ h.*1 /\ latest pathof h (pathof id) = latest pathof h' (pathof id) /\ length (filter (fun i => take (n - 1) (pathof id) `prefix_of` pathof i) h.*1) = 1%nat) ids ->
  exists φ ψ : list Zr -> list Zr, forall κ, length κ = (n * length h)%nat ->
    (length (φ κ) = length κ /\ ψ (φ κ) = κ) /\ (length (ψ κ) = length κ /\ φ (ψ κ) = κ) /\
    published pp order' id2path h' (φ κ) = published pp order id2path h κ /\
    (h <> [] -> total F n (latest pathof h) = total F n (latest pathof h') -> published_with_total pp order' id2path h' (φ κ) = published_with_total pp order id2path h κ) /\
    exists ls ls', filled pp order id2path h κ = Ret ls /\ filled pp order' id2path h' (φ κ) = Ret ls' /\
      same_messages (fun κs => length κs = length ids /\ Forall (proof_coins_ok pp n) κs)
        (fun ms => forall i id m, ids !! i = Some id -> ms !! i = Some m -> proof_good pp (pathof id) m)
        (run_list ((fun id κ => ProveLiability pp id2path (coins_of κ) ls id) <$> ids)) (run_list ((fun id κ => ProveLiability pp id2path (coins_of κ) ls' id) <$> ids)).
Proof.
  intros Hα HH HpF Hp Hf Hn Ho Ho' Hids Hz Hz' Ht Ht' Hc.
  destruct (C80_client_view C F α k pp order order' id2path pathof n h h' Hα HH HpF Hp Hf Hn Ho Ho' Hids Hz Hz' Ht Ht') as (φ & ψ & H). exists φ, ψ. intros κ Hκ.
  destruct (H κ Hκ) as (A & B & D & E & ls & ls' & Hls & Hls' & Hsm). split; [exact A|]. split; [exact B|]. split; [exact D|]. split; [exact E|]. exists ls, ls'. split; [exact Hls|]. split; [exact Hls'|]. clear H A B D E.
  set (l := (fun id => (proof_good pp (pathof id), (fun κ => ProveLiability pp id2path (coins_of κ) ls id), (fun κ => ProveLiability pp id2path (coins_of κ) ls' id))) <$> ids
    : list ((option (Z * LiabilityProof C) -> Prop) * (proof_coins -> res (option (Z * LiabilityProof C))) * (proof_coins -> res (option (Z * LiabilityProof C))))).
  assert (E1 : (fun t => t.1.2) <$> l = (fun id κ => ProveLiability pp id2path (coins_of κ) ls id) <$> ids) by (unfold l; rewrite <- list_fmap_compose; reflexivity).
  assert (E2 : (fun t => t.2) <$> l = (fun id κ => ProveLiability pp id2path (coins_of κ) ls' id) <$> ids) by (unfold l; rewrite <- list_fmap_compose; reflexivity).
  rewrite <- E1, <- E2. eapply sm_weaken; [| |apply sm_list].
  - intros κs. unfold l. rewrite fmap_length. reflexivity.
  - cbv beta. intros ms Hg i t m Hl Hm. unfold l in Hl. rewrite list_lookup_fmap in Hl. destruct (ids !! i) as [id|] eqn:Ei; [|discriminate Hl]. apply (inj Some) in Hl. subst t. cbn [fst]. by apply (Hg i id m).
  - apply Forall_fmap. eapply Forall_impl; [exact Hc|]. intros id (Hin & Hlat & Honce). cbn [fst snd compose].
    destruct (latest pathof h (pathof id)) as [z|] eqn:Ez; [apply (Hsm id z); done|].
    apply elem_of_list_fmap in Hin as ([i x] & -> & Hin). by apply (proj1 (latest_None pathof h _) Ez i x) in Hin.
Qed.

(** ** The hypotheses can be met *)
(** The two generators are hashes of constants. *)
Lemma generated_bases {C : Curve} f t α g (pp : PolPP C) : GeneratePublicParams f t α = Ret (g, pp) ->
  rp_H (po_RPPP pp) = rand_gen "range proof H" 0 /\ pe_F (po_POEPP pp) = rand_gen "POE F" 0.
Proof.
  intros H. unfold GeneratePublicParams in H. apply rbind_inv in H as ([m i] & _ & H). apply rbind_inv in H as (m' & _ & H). apply rbind_inv in H as (poe & Hpoe & H).
  apply rbind_inv in H as (sa & _ & H). apply rbind_inv in H as (rp & Hrp & H). apply rbind_inv in H as (F & _ & H). apply rbind_inv in H as (Gs & _ & H). injection H as <- <-.
  cbn [po_RPPP po_POEPP]. unfold set_range_gens. cbn [rp_H]. split; [apply (range_FH_made C _ _ Hrp)|apply (poe_F_made C _ _ _ _ Hpoe)].
Qed.
(** Only the random values of the vertices on the path are used. *)
Lemma prove_coins_ext {C : Curve} (pp : PolPP C) id2path co co' ls id p : id2path id = Ret p -> (forall i, (i < length p)%nat -> pc_range co i = pc_range co' i) ->
  pc_w co = pc_w co' -> pc_r' co = pc_r' co' -> pc_eq co = pc_eq co' -> pc_r1 co = pc_r1 co' -> pc_r2 co = pc_r2 co' ->
  ProveLiability pp id2path co ls id = ProveLiability pp id2path co' ls id.
Proof.
  intros Hid E1 E2 E3 E4 E5 E6. unfold ProveLiability. rewrite Hid. cbn [rbind]. destruct (VGet id2path (ls_tree ls) id) as [[[x along]|]| |]; cbn [rbind]; [|reflexivity..].
  rewrite (Pp_facts.mapM_ext (fun i => let! v := idx along i in prove_range_of pp co v i) (fun i => let! v := idx along i in prove_range_of pp co' v i)).
  - rewrite E2, E3, E4, E5, E6. reflexivity.
  - intros i Hi. apply elem_of_seq in Hi. unfold prove_range_of. rewrite E1 by lia. done.
Qed.
Definition ex_view (a b : Z) : list (string * Z) := [("123456789"%string, a); ("987654321"%string, b)].
Lemma ex_view_fixed a b : fixed_paths 7 (digit_path 7) ex_dense_paths 11 (ex_view a b).
Proof.
  destruct (ex_dense_fixed _ (or_intror eq_refl)) as [HF H]. split; [done|]. intros id z Hin.
  repeat (apply elem_of_cons in Hin as [Hin|Hin]; [injection Hin as -> ->|]); [apply (H _ 5%Z); left|apply (H _ 7%Z); right; left|by apply elem_of_nil in Hin].
Qed.
Lemma ex_view_total a b : total 7 11 (latest ex_dense_paths (ex_view a b)) = (b + a)%Z.
Proof.
  change (ex_view a b) with (([] ++ [("123456789"%string, a)]) ++ [("987654321"%string, b)]).
  rewrite (total_ext 7 11 _ (fun q => if decide (ex_dense_p2 = q) then Some b else if decide (ex_dense_p1 = q) then Some a else None)).
  - change 11%nat with (length ex_dense_p2) at 1. rewrite total_point by (unfold ex_dense_p2; repeat (apply Forall_cons; split; [lia|]); constructor).
    change (length ex_dense_p2) with (length ex_dense_p1). rewrite (total_point 7 ex_dense_p1 (fun _ => None)) by (unfold ex_dense_p1; repeat (apply Forall_cons; split; [lia|]); constructor).
    rewrite decide_False by done. rewrite total_empty by done. cbn. lia.
  - intros q _. rewrite !latest_snoc. done.
Qed.
Lemma sum_agg_good_all (C : Curve) (V : list (G1 C)) p : (forall m, fe (sha256 C m) <> 0) -> sum_agg_good V p.
Proof. intros H t A _ _ E. unfold randomOracleCVW in E. rewrite fe_sha in E. apply (f_equal (fun x => match x with Ret y => y | _ => 1 end)) in E. by apply H in E. Qed.
Lemma proof_good_all (C : Curve) (pp : PolPP C) p m : (forall m, fe (sha256 C m) <> 0) -> (forall key m, fe (hmac C key m) <> 0) -> proof_good pp p m.
Proof.
  intros H H' z lp _. split; [intros; by apply range_good_all|]. split; [by apply sum_agg_good_all|]. intros zc m' _ _ x Hx. unfold path_equalities in Hx. cbn [es_RO es_PP es_V es_W] in Hx. apply poe_RO_1 in Hx. rewrite Hx. apply H'.
Qed.
Lemma toy_proof_good (pp : PolPP toy) p m : proof_good pp p m.
Proof. exact (proof_good_all toy pp p m toy_challenge_neq_0 toy_hmac_neq_0). Qed.
(** The other client has 7 in one set and 1000 in the other; one and the same proof comes from both. *)
Example C80_nonvacuous : exists (pp : PolPP toy) g φ κ κ' κ'' ls ls' lp, GeneratePublicParams 7 Dense (zr 5) = Ret (g, pp) /\ zr 5 <> 0 /\ rp_H (po_RPPP pp) <> gzero /\ pe_F (po_POEPP pp) <> gzero /\
  (exists k, params_ok 7 (zr 5) 11 k pp) /\ length κ = 22%nat /\
  published pp ex_order (digit_path 7) (ex_view 5 1000) (φ κ) = published pp ex_order (digit_path 7) (ex_view 5 7) κ /\
  filled pp ex_order (digit_path 7) (ex_view 5 7) κ = Ret ls /\ filled pp ex_order (digit_path 7) (ex_view 5 1000) (φ κ) = Ret ls' /\
  proof_coins_ok pp 11 κ' /\ ProveLiability pp (digit_path 7) (coins_of κ') ls "123456789" = Ret (Some (5%Z, lp)) /\ proof_good pp ex_dense_p1 (Some (5%Z, lp)) /\
  proof_coins_ok pp 11 κ'' /\ ProveLiability pp (digit_path 7) (coins_of κ'') ls' "123456789" = Ret (Some (5%Z, lp)).
Proof.
  assert (Hsup : supported 7 Dense) by (exists 3%Z; done).
  destruct (generate_spec (C:=toy) 7 Dense (zr 5) Hsup) as (n & g & pp & k & HG & Hfl & _ & Hp & _).
  assert (n = 11%nat) as -> by (assert (E : full_path_length 7 Dense 11) by done; unfold full_path_length in Hfl, E; congruence).
  change (Z.to_nat 7) with 7%nat in Hp. destruct (generated_bases _ _ _ _ _ HG) as [EH EF].
  assert (HH : rp_H (po_RPPP pp) <> gzero) by (rewrite EH; apply toy_hash_to_g1_neq_0). assert (HF : pe_F (po_POEPP pp) <> gzero) by (rewrite EF; apply toy_hash_to_g1_neq_0). clear EH EF.
  set (h := ex_view 5 7). set (h' := ex_view 5 1000). assert (Hα : zr 5 <> 0) by done.
  assert (Hnn : forall a b, (0 <= a)%Z -> (0 <= b)%Z -> Forall (fun e => 0 <= snd e)%Z (ex_view a b)) by (intros; repeat (constructor; [done|]); constructor).
  destruct (C80_client_view toy 7 (zr 5) k pp ex_order ex_order (digit_path 7) ex_dense_paths 11 h h' Hα HH HF Hp (ex_view_fixed _ _) ltac:(lia) ex_order_perm ex_order_perm eq_refl (Hnn 5 7 ltac:(lia) ltac:(lia))%Z (Hnn 5 1000 ltac:(lia) ltac:(lia))%Z)
    as (φ & ψ & H); [unfold h; rewrite ex_view_total; lia|unfold h'; rewrite ex_view_total; lia|].
  set (κ := replicate 22 (zr 3)). destruct (H κ eq_refl) as (_ & _ & Hpub & _ & ls & ls' & Hls & Hls' & Hsm). clear H.
  assert (Hlat : forall b, latest ex_dense_paths (ex_view 5 b) (ex_dense_paths "123456789") = Some 5%Z) by (intros; vm_compute; done).
  specialize (Hsm "123456789"%string 5%Z ltac:(left) (Hlat _) (Hlat _) ltac:(vm_compute; done)).
  set (κ' := (replicate 11 (toy_coins (length (rp_Gs (po_RPPP pp)))), ((pc_w (ex_coins pp), pc_r' (ex_coins pp)), (pc_eq (ex_coins pp), pc_r1 (ex_coins pp), pc_r2 (ex_coins pp)))) : proof_coins).
  assert (Hκ' : proof_coins_ok pp 11 κ').
  { destruct (ex_coins_fit pp) as (F1 & F2 & F3). split; [split; [done|apply Forall_replicate, (F1 0%nat)]|]. split; [exact F2|exact F3]. }
  assert (Hhon : honest_state 7 (zr 5) pp (fun t => nth t κ 0) ex_order (digit_path 7) ex_dense_paths ((fun '(id, z) => CSet id z) <$> h) ls "123456789" ex_dense_p1 5).
  { unfold honest_state. change (length ex_dense_p1) with 11%nat. split; [lia|]. split; [by exists k|]. rewrite sets_of. split; [apply ex_view_fixed|]. split; [split; [apply ex_order_perm|exists ∅; exact Hls]|].
    split; [unfold total_of; rewrite sets_of; unfold h; rewrite ex_view_total; lia|]. split; [exact ex_dense_path1|]. split; [vm_compute; done|]. vm_compute. done. }
  destruct (C53_returned toy 7 (zr 5) pp _ ex_order (digit_path 7) ex_dense_paths _ ls _ _ _ (ex_coins pp) Hhon (ex_coins_fit pp)) as (ws & rps & _ & _ & _ & _ & HPL).
  destruct HPL as (lp & HPL & _).
  { generalize (v_V <$> ws). induction rps as [|rp l IH]; intros [|V k']; [constructor..|]. cbn [zip_with concat]. apply Forall_app. split; [apply toy_range_challenges|apply IH]. }
  assert (HPL' : ProveLiability pp (digit_path 7) (coins_of κ') ls "123456789" = Ret (Some (5%Z, lp))).
  { rewrite (prove_coins_ext pp (digit_path 7) (coins_of κ') (ex_coins pp) ls "123456789" ex_dense_p1 ex_dense_path1); [exact HPL| |reflexivity..].
    intros i Hi. unfold coins_of, κ'. cbn [pc_range fst]. change (length ex_dense_p1) with 11%nat in Hi. rewrite nth_lookup, lookup_replicate_2 by exact Hi. reflexivity. }
  destruct Hsm as (φ' & ψ' & Hsm). destruct (Hsm κ' (Some (5%Z, lp)) Hκ' (toy_proof_good pp _ _)) as [Hsm1 _]. destruct (Hsm1 HPL') as (A & B & _).
  exists pp, g, φ, κ, κ', (φ' κ'), ls, ls', lp. split; [exact HG|]. split; [exact Hα|]. split; [exact HH|]. split; [exact HF|]. split; [by exists k|]. split; [done|]. split; [exact Hpub|]. split; [exact Hls|]. split; [exact Hls'|].
  split; [exact Hκ'|]. split; [exact HPL'|]. split; [apply toy_proof_good|]. split; [exact A|exact B].
Qed.
(** The remaining hypothesis of C80_coalition, for a client asking twice *)
Example C80_coalition_nonvacuous : Forall (fun id => id ∈ (ex_view 5 7).*1 /\ latest ex_dense_paths (ex_view 5 7) (ex_dense_paths id) = latest ex_dense_paths (ex_view 5 1000) (ex_dense_paths id) /\
  length (filter (fun i => take 10 (ex_dense_paths id) `prefix_of` ex_dense_paths i) (ex_view 5 7).*1) = 1%nat) ["123456789"%string; "123456789"%string].
Proof. repeat (apply Forall_cons; split; [split; [left|split; vm_compute; done]|]). constructor. Qed.
Print Assumptions C80_coalition.
Print Assumptions C80_liability_proof.
Print Assumptions C80_client_view.
