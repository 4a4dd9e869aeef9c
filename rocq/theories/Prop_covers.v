(** Property C85: what clients with consistent views are guaranteed, and which checks would make their views consistent. *)
From Verif Require Import Pp_facts Prop_pp Sparse_facts Verkle_facts Verkle_enc Pol_params Pol_run Pol_chain Prop_verkle Prop_set Prop_range Prop_sum Prop_poe Prop_accept Prop_liability Prop_views Toy.
Local Open Scope Zr_scope.

(** ** Specification *)
(** A client with the proof they received, and the vectors the prover committed to in it: the values (with sum and blinding factor) and the digests *)
Record Client (C : Curve) := MkClient { cl_id : string; cl_path : path; cl_lp : LiabilityProof C; cl_values : list (list Zr); cl_digests : list (list Zr) }.
Arguments MkClient {C}. Arguments cl_id {C}. Arguments cl_path {C}. Arguments cl_lp {C}. Arguments cl_values {C}. Arguments cl_digests {C}.
Definition int64 (z : Z) : Prop := (- 2 ^ 63 <= z < 2 ^ 63)%Z.
Definition claimed {C : Curve} (c : Client C) : Z := tp_Sum (lp_Liability (cl_lp c)).
(** What the range, sum and equality arguments prove (C65, C70, C72): vector i opens commitment i, its first F+1 entries are below 2^63, entry F
    is the sum of the first F, and entry F of vector i+1 is entry p[i] of vector i. *)
Record values_known {C : Curve} (F : nat) (pp : PolPP C) (c : Client C) : Prop := MkVK {
  vk_len : length (cl_values c) = length (cl_path c);
  vk_opens : forall i v, cl_values c !! i = Some v -> length v = (F + 2)%nat /\ exists Vi, Commit (po_PPPP pp) v = Ret Vi /\ lp_V (cl_lp c) !! i = Some Vi;
  vk_range : forall i v, cl_values c !! i = Some v -> Forall in_range (take (F + 1) v);
  vk_sum : forall i v, cl_values c !! i = Some v -> v !! F = Some (zsum (take F v));
  vk_link : forall i v v' a, cl_values c !! i = Some v -> cl_values c !! S i = Some v' -> cl_path c !! i = Some a -> v !! a = v' !! F }.
(** The check that is missing: entry p[i] of the vector in W[i] is the digest at index i. *)
Record digests_known {C : Curve} (F : nat) (pp : PolPP C) (c : Client C) : Prop := MkDK {
  dk_len : (length (cl_digests c) + 1)%nat = length (cl_path c);
  dk_opens : forall i d, cl_digests c !! i = Some d -> length d = (F + 2)%nat /\ exists Wi, Commit (po_PPPP pp) d = Ret Wi /\ lp_W (cl_lp c) !! i = Some Wi;
  dk_entry : forall i d a, cl_digests c !! i = Some d -> cl_path c !! i = Some a -> d !! a = lp_Digests (cl_lp c) !! i }.
(** Clients see the same commitment in the vertices they share. *)
Definition consistent {C : Curve} (cls : list (Client C)) : Prop := forall c c' i, c ∈ cls -> c' ∈ cls -> (i < length (cl_path c))%nat ->
  take i (cl_path c) = take i (cl_path c') -> lp_V (cl_lp c) !! i = lp_V (cl_lp c') !! i.
(** Two different vectors in l with the same commitment *)
Definition equivocation {C : Curve} (pp : PolPP C) (l : list (list Zr)) : Prop := exists v v', v ∈ l /\ v' ∈ l /\ v <> v' /\ Commit (po_PPPP pp) v = Commit (po_PPPP pp) v'.
(** The withheld power can be computed from one of the vectors in l and one of the openings in o. *)
Definition withheld_computed {C : Curve} (N : nat) (α : Zr) (pp : PolPP C) (l : list (list Zr)) (o : list (TotalProof C)) : Prop :=
  exists v tp i m π, v ∈ l /\ tp ∈ o /\ Open (po_PPPP pp) i v = Ret (m, π) /\ m <> zr (tp_Sum tp) /\
    withheld C N α = gmul (zinv (m - zr (tp_Sum tp))) (gadd (tp_proof tp) (gopp π)).
(** Two different hashed lists of commitments in the proofs with the same scalar *)
Definition hashed {C : Curve} (c : Client C) : list (list (G1 C)) :=
  zip_with (fun V W => [V; W]) (lp_V (cl_lp c)) (lp_W (cl_lp c)) ++ ((fun V => [V]) <$> lp_V (cl_lp c)).
Definition hash_collision {C : Curve} (cls : list (Client C)) : Prop := exists c c' l l', c ∈ cls /\ c' ∈ cls /\ l ∈ hashed c /\ l' ∈ hashed c' /\ l <> l' /\ hash_scalar l = hash_scalar l'.

(** ** Sums over clients *)
Lemma sumZ_group {A} (pathc : A -> path) (f : A -> Z) F i (M : list A) : (forall c, c ∈ M -> exists a, pathc c !! i = Some a /\ (a < F)%nat) ->
  sumZ f M = sumZ (fun a => sumZ f (filter (fun c => pathc c !! i = Some a) M)) (seq 0 F).
Proof.
  induction M as [|c M IH]; intros H; [symmetry; apply sumZ_zero; done|].
  destruct (H c ltac:(left)) as (a & Ha & Hlt). cbn [sumZ foldr]. fold (sumZ f M). rewrite IH by (intros c' Hc'; apply H; right; done).
  assert (E : forall b, b ∈ seq 0 F -> sumZ f (filter (fun c => pathc c !! i = Some b) (c :: M)) = ((if decide (a = b) then f c else 0) + sumZ f (filter (fun c => pathc c !! i = Some b) M))%Z).
  { intros b _. destruct (decide (a = b)) as [->|Hne]; [rewrite filter_cons_True by done; done|rewrite filter_cons_False by congruence; lia]. }
  rewrite (sumZ_ext _ _ _ E). clear IH E H.
  assert (G : forall g s m, (s <= a < s + m)%nat -> (sumZ (fun b => (if decide (a = b) then f c else 0) + g b) (seq s m) = f c + sumZ g (seq s m))%Z).
  { clear. intros g s m. revert s. induction m as [|m IH]; intros s Hs; [lia|]. cbn [seq sumZ foldr]. fold (sumZ (fun b => (if decide (a = b) then f c else 0) + g b)%Z (seq (S s) m)). fold (sumZ g (seq (S s) m)).
    destruct (decide (a = s)) as [->|Hne]; [|rewrite IH by lia; lia].
    assert (E : sumZ (fun b => (if decide (s = b) then f c else 0) + g b)%Z (seq (S s) m) = sumZ g (seq (S s) m)); [|rewrite E; lia].
    apply sumZ_ext. intros b Hb%elem_of_seq. rewrite decide_False by lia. lia. }
  rewrite G by lia. done.
Qed.
Lemma sumZ_le {A} (f g : A -> Z) l : (forall a, a ∈ l -> f a <= g a)%Z -> (sumZ f l <= sumZ g l)%Z.
Proof.
  induction l as [|a l IH]; intros H; [done|]. cbn [sumZ foldr]. fold (sumZ f l) (sumZ g l). pose proof (H a ltac:(left)). assert (sumZ f l <= sumZ g l)%Z by (apply IH; intros b Hb; apply H; right; done). lia.
Qed.
Lemma take_same {A} i (p p' : list A) a : take i p = take i p' -> p !! i = Some a -> p' !! i = Some a -> take (S i) p = take (S i) p'.
Proof. intros H H1 H2. rewrite (take_S_r p i a H1), (take_S_r p' i a H2), H. done. Qed.

Section Cover.
  Context {A : Type} (pathc : A -> path) (val : A -> Z) (ent : A -> nat -> nat -> Z) (sm : A -> nat -> Z) (F n : nat) (L : list A).
  Hypothesis Hpath : forall c, c ∈ L -> length (pathc c) = n /\ Forall (fun i => i < F)%nat (pathc c).
  Hypothesis Hpos : forall c i j, c ∈ L -> (i < n)%nat -> (j < F)%nat -> (0 <= ent c i j)%Z.
  Hypothesis Hsum : forall c i, c ∈ L -> (i < n)%nat -> sm c i = sumZ (ent c i) (seq 0 F).
  Hypothesis Hlink : forall c i a, c ∈ L -> (S i < n)%nat -> pathc c !! i = Some a -> ent c i a = sm c (S i).
  Hypothesis Hbot : forall c a, c ∈ L -> pathc c !! (n - 1)%nat = Some a -> ent c (n - 1) a = val c.
  Hypothesis Hagree : forall c c' i j, c ∈ L -> c' ∈ L -> (i < n)%nat -> take i (pathc c) = take i (pathc c') -> ent c i j = ent c' i j.

  Lemma cover_at d : forall i M c, (i + d + 1)%nat = n -> NoDup (pathc <$> M) -> (forall x, x ∈ M -> x ∈ L /\ take i (pathc x) = take i (pathc c)) -> c ∈ L ->
    (sumZ val M <= sm c i)%Z.
  Proof.
    induction d as [|d IH]; intros i M c Hi Hd HM Hc;
      (rewrite (sumZ_group pathc val F i M) by (intros x Hx; destruct (HM x Hx) as [HL _]; destruct (Hpath x HL) as [Hl HF]; destruct (lookup_lt_is_Some_2 (pathc x) i ltac:(lia)) as [a Ha]; exists a; split; [done|]; rewrite Forall_lookup in HF; eauto));
      rewrite Hsum by (try done; lia); apply sumZ_le; intros a Ha%elem_of_seq;
      (assert (Hin : forall x, x ∈ filter (fun c => pathc c !! i = Some a) M -> x ∈ L /\ pathc x !! i = Some a /\ take i (pathc x) = take i (pathc c)) by (intros x [Hx Hx']%elem_of_list_filter; destruct (HM x Hx') as [H1 H2]; done));
      (assert (Hd' : NoDup (pathc <$> filter (fun c => pathc c !! i = Some a) M)) by (clear -Hd; induction M as [|x M IH]; [done|]; rewrite fmap_cons in Hd; apply NoDup_cons in Hd as [H1 H2]; specialize (IH H2);
         rewrite filter_cons; destruct (decide _); [|done]; rewrite fmap_cons; apply NoDup_cons; split; [|done]; intros (y & E & Hy)%elem_of_list_fmap; apply H1; apply elem_of_list_fmap; exists y; split; [done|]; apply elem_of_list_filter in Hy; apply Hy));
      destruct (filter (fun c => pathc c !! i = Some a) M) as [|x N] eqn:EN; try (apply Hpos; [done|lia|lia]).
    - destruct (Hin x ltac:(left)) as (HxL & Hx & Hxc). destruct N as [|y N].
      + cbn [sumZ foldr]. replace i with (n - 1)%nat in * by lia. rewrite (Hagree c x (n - 1) a) by (try done; lia). rewrite (Hbot x a HxL Hx). lia.
      + exfalso. destruct (Hin y ltac:(right; left)) as (HyL & Hy & Hyc). rewrite !fmap_cons in Hd'. apply NoDup_cons in Hd' as [Hn _]. apply Hn. assert (E : pathc x = pathc y); [|rewrite E; left].
        pose proof (proj1 (Hpath x HxL)). pose proof (proj1 (Hpath y HyL)). rewrite <- (take_ge (pathc x) (S i)), <- (take_ge (pathc y) (S i)) by lia. apply (take_same i _ _ a); congruence.
    - destruct (Hin x ltac:(left)) as (HxL & Hx & Hxc). rewrite (Hagree c x i a) by (try done; lia). rewrite (Hlink x i a HxL ltac:(lia) Hx). apply (IH (S i) (x :: N) x); [lia|done| |done].
      intros y Hy. destruct (Hin y Hy) as (HyL & Hy' & Hyc). split; [done|]. apply (take_same i _ _ a); congruence.
  Qed.
  Lemma cover c : (1 <= n)%nat -> NoDup (pathc <$> L) -> c ∈ L -> (sumZ val L <= sm c 0)%Z.
  Proof. intros Hn Hd Hc. apply (cover_at (n - 1) 0 L c); [lia|done|intros x Hx; done|done]. Qed.
End Cover.

Lemma forall_or {A} (P : A -> Prop) (B : Prop) (l : list A) : (forall x, x ∈ l -> P x \/ B) -> (forall x, x ∈ l -> P x) \/ B.
Proof.
  induction l as [|a l IH]; intros H; [left; intros x Hx; by apply elem_of_nil in Hx|]. destruct (H a ltac:(left)) as [Ha|]; [|by right].
  destruct IH as [Hl|]; [intros x Hx; apply H; right; done| |by right]. left. intros x [->|Hx]%elem_of_cons; auto.
Qed.

Lemma seq_nth_take (v : list Zr) F : (F <= length v)%nat -> (fun j => nth j v 0) <$> seq 0 F = take F v.
Proof.
  intros H. apply list_eq. intros i. rewrite list_lookup_fmap. destruct (decide (i < F)%nat) as [Hi|Hi].
  - rewrite lookup_seq_lt by done. rewrite lookup_take by done. cbn. destruct (lookup_lt_is_Some_2 v i ltac:(lia)) as [x Hx]. rewrite Hx. rewrite (nth_lookup_Some _ _ _ _ Hx). done.
  - rewrite lookup_seq_ge by lia. rewrite lookup_take_ge by lia. done.
Qed.
Lemma sum_int (v : list Zr) F : (Z.of_nat F < 65536)%Z -> length v = (F + 2)%nat -> Forall in_range (take (F + 1) v) -> v !! F = Some (zsum (take F v)) ->
  zv (nth F v 0) = sumZ (fun j => zv (nth j v z0)) (seq 0 F).
Proof.
  intros HF Hl Hr Hs. rewrite (nth_lookup_Some _ _ _ _ Hs). rewrite <- (seq_nth_take v F) by lia.
  assert (E : zsum ((fun j => nth j v 0) <$> seq 0 F) = zr (sumZ (fun j => zv (nth j v z0)) (seq 0 F))).
  { rewrite zr_sumZ. f_equal. apply list_fmap_ext. intros i x _. symmetry. apply zr_zv. }
  rewrite E. apply zv_zr_small.
  assert (B : forall j, j ∈ seq 0 F -> (0 <= zv (nth j v z0) <= 2 ^ 63)%Z).
  { intros j Hj%elem_of_seq. destruct (lookup_lt_is_Some_2 v j ltac:(lia)) as [x Hx]. rewrite (nth_lookup_Some _ _ _ _ Hx). split; [apply zv_range|]. rewrite Forall_lookup in Hr. assert (in_range x) as Hx' by (apply (Hr j); rewrite lookup_take by lia; done). unfold in_range in Hx'. lia. }
  split; [apply sumZ_nonneg; intros j Hj; apply B; done|].
  assert (U : (sumZ (fun j => zv (nth j v z0)) (seq 0 F) <= sumZ (fun _ : nat => (2 ^ 63)%Z) (seq 0 F))%Z) by (apply sumZ_le; intros j Hj; apply B; done).
  assert (E2 : forall s m, sumZ (fun _ : nat => (2 ^ 63)%Z) (seq s m) = (Z.of_nat m * 2 ^ 63)%Z) by (clear; intros s m; revert s; induction m as [|m IH]; intros s; [done|]; cbn [seq sumZ foldr]; fold (sumZ (fun _ : nat => (2 ^ 63)%Z) (seq (S s) m)); rewrite IH; lia).
  rewrite E2 in U. apply (Z.le_lt_trans _ (65536 * 2 ^ 63)); [lia|]. vm_compute. done.
Qed.
Lemma int64_eq (z : Z) (x : Zr) : int64 z -> in_range x -> x = zr z -> zv x = z.
Proof.
  unfold int64, in_range. intros Hz Hx ->. rewrite zv_zr in *. destruct (decide (0 <= z)%Z) as [H|H]; [apply Z.mod_small; split; [done|]; apply (Z.lt_trans _ (2 ^ 63)); [lia|vm_compute; done]|exfalso].
  rewrite <- (Z_mod_plus_full z 1 r) in Hx. assert (2 ^ 64 < r)%Z by (vm_compute; done). rewrite Z.mod_small in Hx by lia. lia.
Qed.

(** An accepted opening of a known vector shows the true entry, or gives the withheld power away. *)
Lemma opening_true {C : Curve} F α (pp : PolPP C) v Vi i (tp : TotalProof C) l o : po_PPPP pp = NewPublicParams (F + 2) α -> length v = (F + 2)%nat -> (i < F + 2)%nat ->
  Commit (po_PPPP pp) v = Ret Vi -> Verify (po_PPPP pp) (zr (tp_Sum tp)) (tp_proof tp) Vi i = Ret nil_error -> v ∈ l -> tp ∈ o ->
  v !! i = Some (zr (tp_Sum tp)) \/ withheld_computed (F + 2) α pp l o.
Proof.
  intros HPP Hl Hi HC HV Hv Ho. destruct (lookup_lt_is_Some_2 v i ltac:(lia)) as [x Hx]. destruct (decide (x = zr (tp_Sum tp))) as [->|Hne]; [by left|right].
  rewrite HPP in HC, HV. destruct (C07_honest_openings_verify C (F + 2) α v i ltac:(lia) Hl Hi) as (cm & mi & π & H1 & H2 & H3 & H4). rewrite HC in H1. injection H1 as <-. rewrite Hx in H3. apply (inj Some) in H3 as <-.
  exists v, tp, i, x, π. rewrite HPP. split; [done|]. split; [done|]. split; [done|]. split; [done|].
  destruct (C08_position_binding C (F + 2) α (zr (tp_Sum tp)) x (tp_proof tp) π Vi i Hi HV H4) as [_ E]. apply E. done.
Qed.

(** ** C85 *)
(** If every proof has as many value commitments as its path has entries and the clients' views are consistent, the accepted total is at least the sum of
    the accepted liabilities - or the prover has opened one commitment to two vectors, or holds the withheld power. *)
Theorem C85_total_covers : forall (C : Curve) F α n k (pp : PolPP C) id2path V W cls (tp : TotalProof C),
  params_ok F α n k pp -> (2 <= n)%nat -> cls <> [] -> NoDup (cl_path <$> cls) ->
  (forall c, c ∈ cls -> id2path (cl_id c) = Ret (cl_path c) /\ length (cl_path c) = n /\ Forall (fun i => i < F)%nat (cl_path c) /\
    length (lp_V (cl_lp c)) = n /\ LiabilityProof_Verify (cl_lp c) pp (cl_id c) V W id2path = Ret nil_error /\ int64 (claimed c) /\ values_known F pp c) ->
  consistent cls -> TotalProof_Verify tp pp V = Ret nil_error -> int64 (tp_Sum tp) ->
  (sumZ claimed cls <= tp_Sum tp)%Z \/
  equivocation pp (concat (cl_values <$> cls)) \/
  withheld_computed (F + 2) α pp (concat (cl_values <$> cls)) (tp :: ((fun c => lp_Liability (cl_lp c)) <$> cls)).
Proof.
  intros C F α n k pp id2path V W cls tp Hp Hn Hne Hnd Hcl Hcons HT HTi.
  pose proof Hp as (EF & Hk & HFan & HPP & _). assert (HF : (Z.of_nat F < 65536)%Z) by (assert (2 ^ k <= 2 ^ 15)%nat by (apply Nat.pow_le_mono_r; lia); change (2 ^ 15)%nat with (Z.to_nat 32768) in *; lia).
  set (K := concat (cl_values <$> cls)). set (O := tp :: ((fun c => lp_Liability (cl_lp c)) <$> cls)).
  assert (HK : forall c i v, c ∈ cls -> cl_values c !! i = Some v -> v ∈ K).
  { intros c i v Hc Hv. unfold K. apply elem_of_list_In, in_concat. exists (cl_values c). split; [apply elem_of_list_In, elem_of_list_fmap; by exists c|]. apply elem_of_list_In. by apply elem_of_list_lookup_2 in Hv. }
  assert (Hacc : forall c, c ∈ cls -> accepted pp (cl_path c) V W (cl_lp c)).
  { intros c Hc. destruct (Hcl c Hc) as (H1 & _ & _ & _ & H2 & _). apply C55_acceptance in H2 as (p & Hp' & H2). rewrite H1 in Hp'. injection Hp' as <-. done. }
  assert (Hval : forall c i, c ∈ cls -> (i < n)%nat -> exists v Vi, cl_values c !! i = Some v /\ length v = (F + 2)%nat /\ Commit (po_PPPP pp) v = Ret Vi /\ lp_V (cl_lp c) !! i = Some Vi /\ Forall in_range (take (F + 1) v) /\ v !! F = Some (zsum (take F v))).
  { intros c i Hc Hi. destruct (Hcl c Hc) as (_ & Hl & _ & _ & _ & _ & Hk'). destruct (lookup_lt_is_Some_2 (cl_values c) i) as [v Hv]; [rewrite (vk_len _ _ _ Hk'); lia|].
    destruct (vk_opens _ _ _ Hk' i v Hv) as (H1 & Vi & H2 & H3). exists v, Vi. pose proof (vk_range _ _ _ Hk' i v Hv). pose proof (vk_sum _ _ _ Hk' i v Hv). done. }
  (* the same vector in shared vertices *)
  assert (Hag : (forall c, c ∈ cls -> forall c', c' ∈ cls -> forall i, i ∈ seq 0 n -> take i (cl_path c) = take i (cl_path c') -> cl_values c !! i = cl_values c' !! i) \/ equivocation pp K).
  { apply forall_or. intros c Hc. apply forall_or. intros c' Hc'. apply forall_or. intros i Hi%elem_of_seq.
    destruct (Hval c i Hc ltac:(lia)) as (v & Vi & Hv & _ & HV & HVi & _). destruct (Hval c' i Hc' ltac:(lia)) as (v' & Vi' & Hv' & _ & HV' & HVi' & _).
    destruct (decide (take i (cl_path c) = take i (cl_path c'))) as [E|]; [|left; done]. destruct (decide (v = v')) as [->|Hd]; [left; congruence|right].
    exists v, v'. split; [eauto|]. split; [eauto|]. split; [done|]. rewrite HV, HV'. f_equal. apply (inj Some). rewrite <- HVi, <- HVi'. apply Hcons; try done. rewrite (proj1 (proj2 (Hcl c Hc))). lia. }
  destruct Hag as [Hag|]; [|right; left; done].
  (* the liabilities *)
  assert (Hli : (forall c, c ∈ cls -> forall a v, cl_path c !! (n - 1)%nat = Some a -> cl_values c !! (n - 1)%nat = Some v -> v !! a = Some (zr (claimed c))) \/ withheld_computed (F + 2) α pp K O).
  { apply forall_or. intros c Hc. destruct (Hval c (n - 1)%nat Hc ltac:(lia)) as (v & Vi & Hv & Lv & HV & HVi & _). destruct (Hcl c Hc) as (_ & Hl & HFp & Hlen & _).
    destruct (acc_liability _ _ _ _ _ (Hacc c Hc)) as (Vn & a & H1 & H2 & H3). rewrite last_lookup in H1. rewrite (last_lookup (cl_path c)) in H2. rewrite Hlen in H1. rewrite Hl in H2. replace (pred n) with (n - 1)%nat in * by lia.
    rewrite HVi in H1. injection H1 as <-. assert (a < F)%nat by (rewrite Forall_lookup in HFp; by apply (HFp (n - 1)%nat)).
    destruct (opening_true F α pp v Vi a (lp_Liability (cl_lp c)) K O HPP Lv ltac:(lia) HV H3) as [E|E]; [eauto|unfold O; right; apply elem_of_list_fmap; by exists c| |by right].
    left. intros a' v' Ha' Hv'. rewrite H2 in Ha'. rewrite Hv in Hv'. injection Ha' as <-. injection Hv' as <-. done. }
  destruct Hli as [Hli|]; [|right; right; done].
  (* the total *)
  destruct cls as [|c0 cls']; [done|]. set (L := c0 :: cls') in *. assert (Hc0 : c0 ∈ L) by left.
  destruct (Hval c0 0%nat Hc0 ltac:(lia)) as (v0 & V0 & Hv0 & L0 & HV0 & HVi0 & Hr0 & _). rewrite (acc_rootV _ _ _ _ _ (Hacc c0 Hc0)) in HVi0. injection HVi0 as <-.
  unfold TotalProof_Verify in HT. rewrite HFan in HT.
  destruct (opening_true F α pp v0 V F tp K O HPP L0 ltac:(lia) HV0 HT) as [E0|]; [eauto|unfold O; left| |right; right; done]. left.
  set (vec := fun (c : Client C) i => default [] (cl_values c !! i)).
  assert (Et : zv (nth F (vec c0 0%nat) z0) = tp_Sum tp).
  { unfold vec. rewrite Hv0. cbn [default]. rewrite (nth_lookup_Some _ _ _ _ E0). apply int64_eq; [done| |done]. rewrite Forall_lookup in Hr0. apply (Hr0 F). rewrite lookup_take by lia. done. }
  rewrite <- Et. apply (cover cl_path claimed (fun c i j => zv (nth j (vec c i) z0)) (fun c i => zv (nth F (vec c i) z0)) F n L).
  - intros c Hc. destruct (Hcl c Hc) as (_ & H1 & H2 & _). done.
  - intros c i j _ _ _. apply zv_range.
  - intros c i Hc Hi. destruct (Hval c i Hc Hi) as (v & _ & Hv & Lv & _ & _ & Hr & Hs). unfold vec. rewrite Hv. cbn [default]. apply sum_int; done.
  - intros c i a Hc Hi Ha. destruct (Hval c i Hc ltac:(lia)) as (v & _ & Hv & Lv & _). destruct (Hval c (S i) Hc Hi) as (v' & _ & Hv' & Lv' & _). unfold vec. rewrite Hv, Hv'. cbn [default].
    destruct (Hcl c Hc) as (_ & _ & _ & _ & _ & _ & Hk'). pose proof (vk_link _ _ _ Hk' i v v' a Hv Hv' Ha) as E. rewrite (nth_lookup v a), (nth_lookup v' F), E. done.
  - intros c a Hc Ha. destruct (Hval c (n - 1)%nat Hc ltac:(lia)) as (v & _ & Hv & Lv & _ & _ & Hr & _). unfold vec. rewrite Hv. cbn [default]. pose proof (Hli c Hc a v Ha Hv) as E. rewrite (nth_lookup_Some _ _ _ _ E).
    destruct (Hcl c Hc) as (_ & _ & HFp & _ & _ & Hi & _). rewrite Forall_lookup in HFp. specialize (HFp _ _ Ha). cbn beta in HFp. apply int64_eq; [done| |done]. rewrite Forall_lookup in Hr. apply (Hr a). rewrite lookup_take by lia. done.
  - intros c c' i j Hc Hc' Hi E. unfold vec. rewrite (Hag c Hc c' Hc' i); [done|apply elem_of_seq; lia|done].
  - lia.
  - done.
  - done.
Qed.

(** If the digests were opened one by one, the views would be consistent - or a digest vector equivocated, or a hash collided. *)
Theorem C85_digest_check_suffices : forall (C : Curve) F n (pp : PolPP C) id2path V W (cls : list (Client C)),
  (2 <= n)%nat ->
  (forall c, c ∈ cls -> id2path (cl_id c) = Ret (cl_path c) /\ length (cl_path c) = n /\ Forall (fun i => i < F)%nat (cl_path c) /\
    length (lp_V (cl_lp c)) = n /\ LiabilityProof_Verify (cl_lp c) pp (cl_id c) V W id2path = Ret nil_error /\ digests_known F pp c) ->
  consistent cls \/ equivocation pp (concat (cl_digests <$> cls)) \/ hash_collision cls.
Proof.
  intros C F n pp id2path V W cls Hn Hcl. set (K := concat (cl_digests <$> cls)).
  assert (HK : forall c i v, c ∈ cls -> cl_digests c !! i = Some v -> v ∈ K).
  { intros c i v Hc Hv. unfold K. apply elem_of_list_In, in_concat. exists (cl_digests c). split; [apply elem_of_list_In, elem_of_list_fmap; by exists c|]. apply elem_of_list_In. by apply elem_of_list_lookup_2 in Hv. }
  assert (Hacc : forall c, c ∈ cls -> accepted pp (cl_path c) V W (cl_lp c)).
  { intros c Hc. destruct (Hcl c Hc) as (H1 & _ & _ & _ & H2 & _). apply C55_acceptance in H2 as (p & Hp' & H2). rewrite H1 in Hp'. injection Hp' as <-. done. }
  assert (Hpair : forall c c', c ∈ cls -> c' ∈ cls -> forall i, (i < n)%nat -> take i (cl_path c) = take i (cl_path c') ->
    (lp_V (cl_lp c) !! i = lp_V (cl_lp c') !! i /\ ((i < n - 1)%nat -> lp_W (cl_lp c) !! i = lp_W (cl_lp c') !! i)) \/ equivocation pp K \/ hash_collision cls).
  { intros c c' Hc Hc'. destruct (Hcl c Hc) as (_ & Hl & HFp & HlV & _ & Hd). destruct (Hcl c' Hc') as (_ & Hl' & HFp' & HlV' & _ & Hd').
    pose proof (Hacc c Hc) as A. pose proof (Hacc c' Hc') as A'.
    pose proof (acc_W _ _ _ _ _ A) as HlW. pose proof (acc_W _ _ _ _ _ A') as HlW'. rewrite Hl in HlW. rewrite Hl' in HlW'.
    induction i as [|i IH]; intros Hi Ht.
    - left. rewrite (acc_rootV _ _ _ _ _ A), (acc_rootV _ _ _ _ _ A'), (acc_rootW _ _ _ _ _ A), (acc_rootW _ _ _ _ _ A'). done.
    - destruct (lookup_lt_is_Some_2 (cl_path c) i ltac:(lia)) as [a Ha]. destruct (lookup_lt_is_Some_2 (cl_path c') i ltac:(lia)) as [a' Ha'].
      rewrite (take_S_r _ _ _ Ha), (take_S_r _ _ _ Ha') in Ht. apply app_inj_tail in Ht as [Ht <-].
      destruct (IH ltac:(lia) Ht) as [[_ HW]|]; [|by right]. specialize (HW ltac:(lia)).
      destruct (lookup_lt_is_Some_2 (cl_digests c) i) as [d Hdi]; [pose proof (dk_len _ _ _ Hd); lia|]. destruct (lookup_lt_is_Some_2 (cl_digests c') i) as [d' Hdi']; [pose proof (dk_len _ _ _ Hd'); lia|].
      destruct (dk_opens _ _ _ Hd i d Hdi) as (_ & Wi & HC & HWi). destruct (dk_opens _ _ _ Hd' i d' Hdi') as (_ & Wi' & HC' & HWi').
      destruct (decide (d = d')) as [<-|Hne]; [|right; left; exists d, d'; split; [eauto|]; split; [eauto|]; split; [done|]; congruence].
      assert (HD : lp_Digests (cl_lp c) !! i = lp_Digests (cl_lp c') !! i) by (rewrite <- (dk_entry _ _ _ Hd i d a Hdi Ha), <- (dk_entry _ _ _ Hd' i d a Hdi' Ha'); done).
      destruct (lookup_lt_is_Some_2 (lp_V (cl_lp c)) (S i) ltac:(lia)) as [Vi HVi]. destruct (lookup_lt_is_Some_2 (lp_V (cl_lp c')) (S i) ltac:(lia)) as [Vi' HVi']. rewrite HVi, HVi'.
      destruct (decide (S i < n - 1)%nat) as [Hin|Hin].
      + destruct (lookup_lt_is_Some_2 (lp_W (cl_lp c)) (S i) ltac:(lia)) as [Ui HUi]. destruct (lookup_lt_is_Some_2 (lp_W (cl_lp c')) (S i) ltac:(lia)) as [Ui' HUi']. rewrite HUi, HUi'.
        pose proof (acc_inner _ _ _ _ _ A (S i) Vi Ui ltac:(lia) HVi HUi) as E. pose proof (acc_inner _ _ _ _ _ A' (S i) Vi' Ui' ltac:(lia) HVi' HUi') as E'. replace (S i - 1)%nat with i in * by lia.
        destruct (decide ([Vi; Ui] = [Vi'; Ui'])) as [EE|EE]; [left; injection EE as -> ->; done|right; right].
        exists c, c', [Vi; Ui], [Vi'; Ui']. split; [done|]. split; [done|]. split; [unfold hashed; apply elem_of_app; left; apply (elem_of_list_lookup_2 _ (S i)), lookup_zip_with_Some; by exists Vi, Ui|].
        split; [unfold hashed; apply elem_of_app; left; apply (elem_of_list_lookup_2 _ (S i)), lookup_zip_with_Some; by exists Vi', Ui'|]. split; [done|]. apply (inj Some). congruence.
      + assert (S i = n - 1)%nat as Ei by lia. rewrite Ei in HVi, HVi'.
        pose proof (acc_bottom _ _ _ _ _ A Vi) as E. rewrite Hl in E. specialize (E HVi). pose proof (acc_bottom _ _ _ _ _ A' Vi') as E'. rewrite Hl' in E'. specialize (E' HVi'). replace (n - 2)%nat with i in * by lia.
        destruct (decide (Vi = Vi')) as [->|EE]; [left; split; [done|lia]|right; right].
        exists c, c', [Vi], [Vi']. split; [done|]. split; [done|]. split; [unfold hashed; apply elem_of_app; right; apply elem_of_list_fmap; exists Vi; split; [done|]; by apply elem_of_list_lookup_2 in HVi|].
        split; [unfold hashed; apply elem_of_app; right; apply elem_of_list_fmap; exists Vi'; split; [done|]; by apply elem_of_list_lookup_2 in HVi'|]. split; [congruence|]. apply (inj Some). congruence. }
  assert (G : (forall c, c ∈ cls -> forall c', c' ∈ cls -> forall i, i ∈ seq 0 n -> take i (cl_path c) = take i (cl_path c') -> lp_V (cl_lp c) !! i = lp_V (cl_lp c') !! i) \/ (equivocation pp K \/ hash_collision cls)).
  { apply forall_or. intros c Hc. apply forall_or. intros c' Hc'. apply forall_or. intros i Hi%elem_of_seq. destruct (decide (take i (cl_path c) = take i (cl_path c'))) as [E|]; [|left; done].
    destruct (Hpair c c' Hc Hc' i ltac:(lia) E) as [[H _]|]; auto. }
  destruct G as [G|]; [left|by right]. intros c c' i Hc Hc' Hi E. apply G; [done..| |done]. apply elem_of_seq. rewrite (proj1 (proj2 (Hcl c Hc))) in Hi. lia.
Qed.

(** The honest prover's proofs meet all of these conditions. *)
Theorem C85_honest_views : forall (C : Curve) F α (pp : PolPP C) rnd order id2path pathof cs ls id p z co lp,
  honest_state F α pp rnd order id2path pathof cs ls id p z -> coins_fit pp co ->
  ProveLiability pp id2path co ls id = Ret (Some (z, lp)) -> nonzero (proof_challenges pp lp) ->
  exists vs ds, let c := MkClient id p lp vs ds in
    values_known F pp c /\ digests_known F pp c /\ length (lp_V lp) = length p /\ claimed c = z /\ int64 z.
Proof.
  intros C F α pp rnd order id2path pathof cs ls id p z co lp Hh Hco HPL Hnz.
  destruct (honest_proof F α pp rnd order id2path pathof cs ls id p z co z lp Hh Hco HPL) as (_ & ws & w0 & Hch & Hw0 & _ & HV & HW & Hz & W & _ & Hacc). specialize (Hacc Hnz).
  pose proof Hh as (Hn & [k Hp] & _). pose proof Hp as (_ & _ & _ & HPP & _). pose proof Hch as [L Hpath Hok Hr Hsmall Hlink Hhash Hbot Hzr]. rewrite Forall_lookup in Hok. rewrite Forall_lookup in Hr.
  assert (Lp : length ws = length p) by done.
  exists (values_vec F <$> ws), (digests_vec F <$> take (length p - 1) ws). cbn zeta. split_and!.
  - constructor; cbn [cl_values cl_path cl_lp].
    + rewrite fmap_length. done.
    + intros i v Hv. rewrite list_lookup_fmap in Hv. destruct (ws !! i) as [w|] eqn:Hw; [|done]. injection Hv as <-. split; [apply values_vec_length|]. exists (v_V w). rewrite HPP, HV, list_lookup_fmap, Hw. split; [|done].
      destruct (Hok i w Hw) as [-> _]. apply commit_spec; [apply values_vec_length|lia].
    + intros i v Hv. rewrite list_lookup_fmap in Hv. destruct (ws !! i) as [w|] eqn:Hw; [|done]. injection Hv as <-. specialize (Hr i w Hw). unfold ranged in Hr. rewrite Vertex_Values_spec in Hr. unfold values_vec.
      change [v_sum w; v_bf w] with ([v_sum w] ++ [v_bf w]). rewrite app_assoc. rewrite take_app_alt; [exact Hr|]. rewrite app_length, fmap_length, seq_length. done.
    + intros i v Hv. rewrite list_lookup_fmap in Hv. destruct (ws !! i) as [w|] eqn:Hw; [|done]. injection Hv as <-. destruct (Hok i w Hw) as [_ [u Hu]]. rewrite Vertex_Values_spec in Hu. apply app_inj_tail in Hu as [<- Hu].
      unfold values_vec. rewrite lookup_app_r by (rewrite fmap_length, seq_length; done). rewrite take_app_alt by (rewrite fmap_length, seq_length; done). rewrite fmap_length, seq_length, Nat.sub_diag. cbn. f_equal. exact Hu.
    + intros i v v' a Hv Hv' Ha. rewrite list_lookup_fmap in Hv, Hv'. destruct (ws !! i) as [w|] eqn:Hw; [|done]. destruct (ws !! S i) as [w'|] eqn:Hw'; [|done]. injection Hv as <-. injection Hv' as <-.
      rewrite (Hlink i w w' a Hw Hw' Ha). unfold values_vec. rewrite lookup_app_r by (rewrite fmap_length, seq_length; done). rewrite fmap_length, seq_length, Nat.sub_diag. done.
  - assert (Hd : forall i d, (digests_vec F <$> take (length p - 1) ws) !! i = Some d -> exists w, ws !! i = Some w /\ (i < length p - 1)%nat /\ d = digests_vec F w).
    { intros i d Hi. rewrite list_lookup_fmap in Hi. destruct (take (length p - 1) ws !! i) as [w|] eqn:Hw; [|done]. injection Hi as <-. apply lookup_take_Some in Hw as [Hw Hlt]. eauto. }
    constructor; cbn [cl_digests cl_path cl_lp].
    + rewrite fmap_length, take_length. lia.
    + intros i d Hi. destruct (Hd i d Hi) as (w & Hw & Hlt & ->). split; [apply digests_vec_length|]. exists (commitment (F + 2) α (digests_vec F w)). rewrite HPP, HW, list_lookup_fmap, Hi. split; [|done]. apply commit_spec; [apply digests_vec_length|lia].
    + intros i d a Hi Ha. destruct (Hd i d Hi) as (w & Hw & Hlt & ->). destruct (lookup_lt_is_Some_2 ws (S i) ltac:(lia)) as [u Hu]. destruct (Hhash i w u a Hw Hu Ha) as [Hh1 _].
      assert (Hs : length (digests_vec F w) = (F + 2)%nat) by apply digests_vec_length. rewrite Forall_lookup in Hpath. specialize (Hpath _ _ Ha). cbn beta in Hpath. destruct (lookup_lt_is_Some_2 (digests_vec F w) a ltac:(lia)) as [x Hx].
      rewrite (nth_lookup_Some _ _ _ _ Hx) in Hh1. rewrite Hx, Hh1. symmetry. assert (HVu : lp_V lp !! S i = Some (v_V u)) by (rewrite HV, list_lookup_fmap, Hu; done).
      destruct (decide (S i < length p - 1)%nat) as [Hin|Hin].
      * destruct (lookup_lt_is_Some_2 ws (S (S i)) ltac:(lia)) as [u' Hu']. destruct (lookup_lt_is_Some_2 p (S i) ltac:(lia)) as [b Hb]. destruct (Hhash (S i) u u' b Hu Hu' Hb) as [_ HWu].
        assert (HWl : lp_W lp !! S i = Some (commitment (F + 2) α (digests_vec F u))) by (rewrite HW, !list_lookup_fmap, lookup_take, Hu by lia; done).
        pose proof (acc_inner _ _ _ _ _ Hacc (S i) _ _ ltac:(lia) HVu HWl) as E. replace (S i - 1)%nat with i in E by lia. rewrite E. f_equal. unfold hash_scalar, vertex_hash. rewrite HWu. cbn [fmap list_fmap concat]. rewrite app_nil_r. done.
      * assert (Ei : S i = (length p - 1)%nat) by lia. rewrite Ei in HVu, Hu. pose proof (acc_bottom _ _ _ _ _ Hacc _ HVu) as E. replace (length p - 2)%nat with i in E by lia. rewrite E. f_equal.
        destruct (lookup_lt_is_Some_2 p (length p - 1)%nat ltac:(lia)) as [b Hb]. destruct (Hbot u b) as [HWu _]; [rewrite last_lookup, Lp, <- Hu; f_equal; lia|rewrite last_lookup, <- Hb; f_equal; lia|].
        unfold hash_scalar, vertex_hash. rewrite HWu. done.
  - rewrite HV, fmap_length. done.
  - exact Hz.
  - unfold int64. lia.
Qed.

Print Assumptions C85_total_covers.
Print Assumptions C85_digest_check_suffices.
Print Assumptions C85_honest_views.

(** ** A concrete case: the two clients of a dense set with fanout 7, with liabilities 5 and 7, and the total 12 *)
Lemma ex_dense_state2 (pp : PolPP toy) ls : honest_state 7 (zr 5) pp ex_rnd ex_order (digit_path 7) ex_dense_paths ex_dense ls "123456789" ex_dense_p1 5 ->
  honest_state 7 (zr 5) pp ex_rnd ex_order (digit_path 7) ex_dense_paths ex_dense ls "987654321" ex_dense_p2 7.
Proof.
  intros (H1 & H2 & H3 & H4 & H5 & _). unfold honest_state. change (length ex_dense_p2) with (length ex_dense_p1). split; [done|]. split; [done|]. split; [done|]. split; [done|]. split; [done|].
  split; [exact ex_dense_path2|]. split; vm_compute; reflexivity.
Qed.
Example C85_nonvacuous : exists (pp : PolPP toy) (c1 c2 : Client toy) V W tp, let cls := [c1; c2] in
  (exists k, params_ok 7 (zr 5) 11 k pp) /\ NoDup (cl_path <$> cls) /\
  (forall c, c ∈ cls -> digit_path 7 (cl_id c) = Ret (cl_path c) /\ length (cl_path c) = 11%nat /\ Forall (fun i => i < 7)%nat (cl_path c) /\
    length (lp_V (cl_lp c)) = 11%nat /\ LiabilityProof_Verify (cl_lp c) pp (cl_id c) V W (digit_path 7) = Ret nil_error /\ int64 (claimed c) /\ values_known 7 pp c /\ digests_known 7 pp c) /\
  consistent cls /\ TotalProof_Verify tp pp V = Ret nil_error /\ int64 (tp_Sum tp) /\ claimed c1 = 5%Z /\ claimed c2 = 7%Z /\ tp_Sum tp = 12%Z.
Proof.
  destruct ex_dense_run as (pp & g & ls & ls' & V & W & lp & _ & _ & Hr & Hh & _ & HPL & _). exists pp. pose proof (ex_dense_state2 pp ls Hh) as Hh2.
  destruct (toy_proof_exists _ _ _ _ _ _ _ _ _ _ _ _ Hh2) as [lp2 HPL2].
  destruct (C53_accepted toy _ _ _ _ _ _ _ _ _ _ _ _ _ _ lp Hh (ex_coins_fit pp) HPL) as (_ & S1 & V1 & W1 & R1 & A1). specialize (A1 (toy_proof_challenges pp lp)).
  destruct (C53_accepted toy _ _ _ _ _ _ _ _ _ _ _ _ _ _ lp2 Hh2 (ex_coins_fit pp) HPL2) as (_ & S2 & V2 & W2 & R2 & A2). specialize (A2 (toy_proof_challenges pp lp2)).
  assert (V2 = V1 /\ W2 = W1) as [-> ->] by (clear -R1 R2; destruct R1 as (w & Hw & <- & E), R2 as (w' & Hw' & <- & E'); rewrite (stored_fun _ _ _ _ Hw' Hw) in *; split; congruence).
  destruct (C85_honest_views toy _ _ _ _ _ _ _ _ _ _ _ _ _ lp Hh (ex_coins_fit pp) HPL (toy_proof_challenges pp lp)) as (vs1 & ds1 & K1 & D1 & L1 & Z1 & I1).
  destruct (C85_honest_views toy _ _ _ _ _ _ _ _ _ _ _ _ _ lp2 Hh2 (ex_coins_fit pp) HPL2 (toy_proof_challenges pp lp2)) as (vs2 & ds2 & K2 & D2 & L2 & Z2 & I2).
  pose proof Hh as (_ & [k Hp] & Hf & _ & Htot & _). pose proof (params_ok_tree _ _ _ _ _ Hp) as Ht.
  destruct (C50_total_proof_complete toy 7 (zr 5) pp ex_rnd ex_order (digit_path 7) ex_dense_paths (length ex_dense_p1) ex_dense ls Ht Hf ltac:(cbn; lia) Hr ltac:(done) Htot) as (tp & V3 & W3 & HP & HS & HR & HV).
  assert (V3 = V1) as -> by (clear -R1 HR; destruct R1 as (w & Hw & <- & E), HR as (w' & Hw' & <- & E'); rewrite (stored_fun _ _ _ _ Hw' Hw); reflexivity).
  exists (MkClient "123456789" ex_dense_p1 lp vs1 ds1), (MkClient "987654321" ex_dense_p2 lp2 vs2 ds2), V1, W1, tp. cbn zeta.
  change (length ex_dense_p1) with 11%nat in Hp, HS. rewrite ex_dense_total in HS.
  split; [by exists k|]. split; [apply NoDup_cons; split; [rewrite elem_of_list_singleton; done|apply NoDup_singleton]|]. split.
  { intros c Hc. apply elem_of_cons in Hc as [->|Hc]; [|apply elem_of_list_singleton in Hc as ->]; cbn [cl_id cl_path cl_lp].
    - split; [exact ex_dense_path1|]. split; [done|]. split; [unfold ex_dense_p1; repeat (apply Forall_cons; split; [lia|]); constructor|]. split; [exact L1|]. split; [exact A1|]. rewrite Z1. split; [exact I1|]. split; [exact K1|exact D1].
    - split; [exact ex_dense_path2|]. split; [done|]. split; [unfold ex_dense_p2; repeat (apply Forall_cons; split; [lia|]); constructor|]. split; [exact L2|]. split; [exact A2|]. rewrite Z2. split; [exact I2|]. split; [exact K2|exact D2]. }
  assert (B1 : lp_V lp !! 0%nat = Some V1) by (apply C55_acceptance in A1 as (p & _ & A1); exact (acc_rootV _ _ _ _ _ A1)).
  assert (B2 : lp_V lp2 !! 0%nat = Some V1) by (apply C55_acceptance in A2 as (p & _ & A2); exact (acc_rootV _ _ _ _ _ A2)).
  split.
  { intros c c' i Hc Hc' _. apply elem_of_cons in Hc as [->|Hc]; [|apply elem_of_list_singleton in Hc as ->]; (apply elem_of_cons in Hc' as [->|Hc']; [|apply elem_of_list_singleton in Hc' as ->]); cbn [cl_path cl_lp]; try (intros _; reflexivity);
    (destruct i as [|i]; [intros _; rewrite B1, B2; reflexivity|intros E; discriminate E]). }
  split; [exact HV|]. rewrite HS. split; [unfold int64; lia|]. split; [exact Z1|]. split; [exact Z2|reflexivity].
Qed.
