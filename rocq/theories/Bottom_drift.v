(** The commitment of a vertex above liabilities after any sequence of updates. *)
From Verif Require Import Extract Prop_pp Pp_facts Prop_verkle Verkle_blind Verkle_run Verkle_facts Sparse_facts.
From Verif Require Export Prop_verkle.
Local Open Scope Zr_scope.

(** ** Specification *)
(** The child of the vertex r which the path p goes through *)
Definition slot (r p : path) : option nat := if decide (take (length r) p = r) then p !! length r else None.
(** What the Sets of a history put below the vertex r: the child and the liability, in order *)
Definition puts_at (pathof : string -> path) (r : path) (h : list (string * Z)) : list (nat * Z) :=
  omap (fun e => (fun i => (i, snd e)) <$> slot r (pathof (fst e))) h.
(** The children after some of them *)
Definition fill (M : gmap nat Z) (l : list (nat * Z)) : gmap nat Z := foldl (fun M e => <[fst e := snd e]> M) M l.
Definition sum_of (F : nat) (M : gmap nat Z) : Z := sumZ (fun i => default 0%Z (M !! i)) (seq 0 F).
(** What putting z at child i adds to the exponent of the error of the commitment, given the children M: with k the number of
    children afterwards, (new sum - M[k]) α^(k+1) - (new sum - old sum) α^(F+1) *)
Definition drift_of (F : nat) (α : Zr) (M : gmap nat Z) (i : nat) (z : Z) : Zr :=
  let M' := <[i := z]> M in let k := size M' in
  (zr (sum_of F M') - zr (default 0%Z (M !! k))) * α ^ (k + 1) - (zr (sum_of F M') - zr (sum_of F M)) * α ^ (F + 1).
Fixpoint drift (F : nat) (α : Zr) (M : gmap nat Z) (l : list (nat * Z)) : Zr :=
  match l with
  | [] => 0
  | (i, z) :: l => drift_of F α M i z + drift F α (<[i := z]> M) l
  end.

(** ** Facts *)
Lemma slot_snoc r p i : length p = S (length r) -> slot r p = Some i <-> p = r ++ [i].
Proof.
  intros Hl. unfold slot. destruct (decide _) as [E|E].
  - rewrite <- (take_drop (length r) p) at 2. rewrite E. assert (Hd : length (drop (length r) p) = 1%nat) by (rewrite drop_length; lia).
    destruct (drop (length r) p) as [|x [|]] eqn:Ed; try (cbn in Hd; lia). assert (Ex : p !! length r = Some x).
    { rewrite <- (Nat.add_0_r (length r)), <- lookup_drop, Ed. done. }
    rewrite Ex. split; [intros [= ->]; done|]. intros H. apply app_inv_head in H. congruence.
  - split; [done|]. intros ->. rewrite take_app in E. done.
Qed.
Lemma slot_prefix r p : length p = S (length r) -> r `prefix_of` p <-> is_Some (slot r p).
Proof.
  intros Hl. split.
  - intros [s Hs]. rewrite Hs, app_length in Hl. destruct s as [|i [|]]; try (cbn in Hl; lia). exists i. apply slot_snoc; [rewrite Hs, app_length; cbn; lia|done].
  - intros [i Hi]. apply slot_snoc in Hi; [|done]. rewrite Hi. by eexists.
Qed.
Lemma puts_at_snoc pathof r h id z : puts_at pathof r (h ++ [(id, z)]) = puts_at pathof r h ++ match slot r (pathof id) with Some i => [(i, z)] | None => [] end.
Proof. unfold puts_at. rewrite omap_app. f_equal. cbn. destruct (slot r (pathof id)); done. Qed.
Lemma fill_snoc M l i z : fill M (l ++ [(i, z)]) = <[i := z]> (fill M l).
Proof. unfold fill. rewrite foldl_app. done. Qed.
Lemma drift_snoc F α l : forall M i z, drift F α M (l ++ [(i, z)]) = drift F α M l + drift_of F α (fill M l) i z.
Proof. induction l as [|[j y] l IH]; intros M i z; cbn [drift app]; [cbn; ring|]. rewrite IH. cbn [fill foldl fst snd]. unfold fill. ring. Qed.

Lemma commitment_error_eq {C : Curve} F α (w : Vertex C) e e' : commitment_error F α w e -> e = e' -> commitment_error F α w e'.
Proof. by intros H <-. Qed.

Section Drift.
  Context {C : Curve} (F : nat) (α : Zr) (rnd : nat -> Zr) (order : nat -> bool -> gmap nat Zr -> list (nat * Zr)) (id2path : string -> res path) (pathof : string -> path) (r : path).
  Notation n := (S (length r)).

  Lemma puts_latest h i : fixed_paths F id2path pathof n h -> fill ∅ (puts_at pathof r h) !! i = latest pathof h (r ++ [i]).
  Proof.
    intros [_ Hg]. induction h as [|[id z] h IH] using rev_ind; [done|]. rewrite puts_at_snoc, latest_snoc.
    assert (Hl : length (pathof id) = n) by (destruct (Hg id z) as (_ & Hl & _); [apply elem_of_app; right; left|done]).
    specialize (IH ltac:(intros id' z' Hin; apply (Hg id' z'), elem_of_app; by left)).
    destruct (slot r (pathof id)) as [j|] eqn:Ej.
    - pose proof Ej as Ep. apply slot_snoc in Ep; [|done]. rewrite fill_snoc, Ep. destruct (decide (j = i)) as [->|Hj]; [rewrite lookup_insert, decide_True by done; done|].
      rewrite lookup_insert_ne by done. rewrite decide_False by (intros E; apply app_inv_head in E; congruence). exact IH.
    - rewrite app_nil_r, decide_False; [exact IH|]. intros E. apply slot_snoc in E; [|done]. congruence.
  Qed.
  Lemma puts_below h : fixed_paths F id2path pathof n h -> puts_at pathof r h <> [] <-> below pathof h r.
  Proof.
    intros [_ Hg]. induction h as [|[id z] h IH] using rev_ind; [split; [done|intros (? & ? & Hin & _); by apply elem_of_nil in Hin]|]. rewrite puts_at_snoc, below_snoc.
    assert (Hl : length (pathof id) = n) by (destruct (Hg id z) as (_ & Hl & _); [apply elem_of_app; right; left|done]).
    rewrite (slot_prefix r _ Hl). rewrite <- IH by (intros id' z' Hin; apply (Hg id' z'), elem_of_app; by left). destruct (slot r (pathof id)) as [j|].
    - split; [intros _; right; eauto|]. intros _ E. by apply app_eq_nil in E as [_ [=]].
    - rewrite app_nil_r. split; [by left|]. intros [H|[? [=]]]. done.
  Qed.

  (** The contents of the vertex *)
  Lemma bottom_contents h t (w : Vertex C) : fixed_paths F id2path pathof n h -> verkle_run (C:=C) F α rnd order id2path h t -> below pathof h r ->
    stored (vs_db (vt_state t)) (path_key r) w -> v_values w = zr <$> fill ∅ (puts_at pathof r h) /\ v_sum w = zr (sum_of F (fill ∅ (puts_at pathof r h))).
  Proof.
    intros Hf Hr Hb Hw. destruct (C45_sums C F α rnd order id2path pathof n h t r Hf Hr Hb ltac:(lia)) as (w' & Hw' & Hs & Hv). rewrite (stored_fun _ _ _ _ Hw' Hw) in Hs, Hv.
    replace (n - length r)%nat with 1%nat in Hs by lia. replace (n - length r - 1)%nat with 0%nat in Hv by lia. split.
    - apply map_eq. intros i. rewrite lookup_fmap, (puts_latest h i Hf). destruct (latest pathof h (r ++ [i])) as [z|] eqn:E.
      + rewrite (proj1 (Hv i)); [rewrite total_0, E; done|]. by apply (latest_below pathof h _ z).
      + apply (proj2 (Hv i)). intros (id & z & Hin & [s Hs']). destruct Hf as [_ Hg]. destruct (Hg id z Hin) as (_ & Hl & _). rewrite Hs', !app_length in Hl. destruct s; [|cbn in Hl; lia]. rewrite app_nil_r in Hs'.
        apply (proj1 (latest_None pathof h (r ++ [i])) E id z Hin). done.
    - rewrite Hs. f_equal. rewrite total_S. unfold sum_of. apply sumZ_ext. intros i _. rewrite total_0, (puts_latest h i Hf). done.
  Qed.

  (** The error of its commitment *)
  Lemma bottom_error h t e1 l : fixed_paths F id2path pathof n h -> verkle_run (C:=C) F α rnd order id2path h t -> puts_at pathof r h = e1 :: l ->
    exists w : Vertex C, stored (vs_db (vt_state t)) (path_key r) w /\ commitment_error F α w (gmul (drift F α {[fst e1 := snd e1]} l) (gen1 C)).
  Proof.
    revert t e1 l. induction h as [|[id z] h IH] using rev_ind; intros t' e1 l Hf [Ho [db0 Ht']] El; [done|].
    assert (Hf0 : fixed_paths F id2path pathof n h) by (destruct Hf as [HF Hg]; split; [done|]; intros id' z' Hin; apply (Hg id' z'), elem_of_app; by left).
    pose proof Ht' as Ht2. rewrite VPuts_app in Ht2. apply rbind_inv in Ht2 as (t & Ht & Hput). cbn [VPuts] in Hput. apply rbind_inv in Hput as (t2 & Hput & E). injection E as ->.
    assert (Hr : verkle_run (C:=C) F α rnd order id2path h t) by (split; eauto). assert (Hr' : verkle_run (C:=C) F α rnd order id2path (h ++ [(id, z)]) t') by (split; eauto).
    assert (Hl : length (pathof id) = n) by (destruct (proj2 Hf id z) as (_ & Hl & _); [apply elem_of_app; right; left|done]).
    assert (HpF : Forall (fun i => i < F)%nat (pathof id)) by (apply (proj2 Hf id z), elem_of_app; right; left).
    rewrite puts_at_snoc in El. destruct (slot r (pathof id)) as [i|] eqn:Ei.
    - pose proof Ei as Ep. apply slot_snoc in Ep; [|done].
      destruct (puts_at pathof r h) as [|e l0] eqn:E0.
      + (* the first one *)
        cbn [app] in El. injection El as <- <-. cbn [drift]. rewrite gmul_0.
        destruct (C47_bottom_once C F α rnd order id2path pathof n (h ++ [(id, z)]) t' r Hf Hr') as (w & Hw & Hc); [|lia|].
        { change (writes pathof (h ++ [(id, z)]) r = 1%nat). rewrite writes_snoc. unfold upd_count. rewrite decide_True by (rewrite Ep; by exists [i]).
          destruct (decide (writes pathof h r = 0%nat)) as [->|Hne]; [done|]. assert (Hb : below pathof h r) by (apply writes_below; lia). apply (puts_below h Hf0) in Hb. done. }
        exists w. split; [exact Hw|]. exists (v_V w). split; [exact Hc|]. module.
      + cbn [app] in El. injection El as <- <-.
        assert (Hb : below pathof h r) by (apply (puts_below h Hf0); rewrite E0; done).
        destruct (IH t e l0 Hf0 Hr Logic.eq_refl) as (w & Hw & He).
        destruct (C48_bottom_update C F α rnd order id2path pathof n h id z t t' r i Hf Hr Hput Ep Hb) as (w1 & w' & e0 & Gk & GF & Hw1 & Hw' & HGk & HGF & He0 & He').
        rewrite (stored_fun _ _ _ _ Hw1 Hw) in *. exists w'. split; [exact Hw'|].
        assert (e0 = gmul (drift F α {[fst e := snd e]} l0) (gen1 C)) as ->.
        { destruct He as (c & Hc & E), He0 as (c' & Hc' & E'). rewrite Hc in Hc'. injection Hc' as <-. apply (gadd_cancel_l c). congruence. }
        destruct (bottom_contents h t w Hf0 Hr Hb Hw) as [V1 S1].
        destruct (bottom_contents (h ++ [(id, z)]) t' w' Hf Hr' ltac:(apply below_snoc; by left) Hw') as [V2 S2].
        rewrite puts_at_snoc, Ei, E0 in V2, S2. rewrite E0 in V1, S1. rewrite fill_snoc in V2, S2. cbv zeta in He', HGk.
        set (M := fill ∅ (e :: l0)) in *. assert (EM : M = fill {[fst e := snd e]} l0) by reflexivity.
        rewrite V2, map_size_fmap in He', HGk. rewrite V1, S1, S2, lookup_fmap in He'.
        assert (Hk : (size (<[i:=z]> M) < F + 2)%nat).
        { apply lookup_lt_Some in HGF. destruct (decide (size (<[i:=z]> M) < F + 2)%nat) as [|Hge]; [done|]. exfalso.
          assert (Hdom : dom (<[i:=z]> M) ⊆ (list_to_set (seq 0 F) : gset nat)).
          { intros x Hx. apply elem_of_dom in Hx as [y Hy]. apply elem_of_list_to_set, elem_of_seq. assert (Hfx : fill ∅ (puts_at pathof r (h ++ [(id, z)])) !! x = Some y) by (rewrite puts_at_snoc, Ei, E0, fill_snoc; exact Hy).
            rewrite (puts_latest _ x Hf) in Hfx. apply latest_elem in Hfx as (id' & Hin & Hpx). destruct (proj2 Hf id' y Hin) as (_ & _ & HFx). rewrite Hpx in HFx. apply Forall_app in HFx as [_ HFx]. apply Forall_cons in HFx as [HFx _]. lia. }
          apply subseteq_size in Hdom. rewrite size_dom in Hdom. rewrite size_list_to_set in Hdom by apply NoDup_seq. rewrite seq_length in Hdom. lia. }
        rewrite pp_G1s_lookup_lo in HGk, HGF by lia. injection HGk as <-. injection HGF as <-.
        eapply (commitment_error_eq F α w'); [exact He'|]. rewrite drift_snoc, <- EM. unfold drift_of. cbv zeta.
        replace (default 0 (zr <$> M !! size (<[i:=z]> M))) with (zr (default 0%Z (M !! size (<[i:=z]> M)))) by (destruct (M !! size (<[i:=z]> M)); done).
        generalize (zr (default 0%Z (M !! size (<[i:=z]> M)))), (zr (sum_of F (<[i:=z]> M))), (zr (sum_of F M)), (α ^ (size (<[i:=z]> M) + 1)), (α ^ (F + 1)), (drift F α {[fst e := snd e]} l0). intros a b c x y d. module.
    - rewrite app_nil_r in El. destruct (IH t e1 l Hf0 Hr El) as (w & Hw & He). exists w. split; [|exact He].
      destruct (verkle_draw (C:=C) F α rnd order id2path pathof (proj1 Hf) Ho n h db0 id z t t' (proj2 Hf) Ht Ht') as (_ & _ & Hframe).
      apply (stored_db (vs_db (vt_state t))); [|exact Hw]. apply Hframe. intros Hpre. apply slot_prefix in Hpre; [|done]. rewrite Ei in Hpre. by destruct Hpre.
  Qed.
End Drift.

Lemma bottom_right_iff {C : Curve} F α rnd order id2path pathof q h t e1 l : fixed_paths F id2path pathof (S (length q)) h -> verkle_run (C:=C) F α rnd order id2path h t -> puts_at pathof q h = e1 :: l ->
  exists w : Vertex C, stored (vs_db (vt_state t)) (path_key q) w /\ (Commit (NewPublicParams (F + 2) α) (values_vec F w) = Ret (v_V w) <-> drift F α {[fst e1 := snd e1]} l = 0).
Proof.
  intros Hf Hr El. destruct (bottom_error F α rnd order id2path pathof q h t e1 l Hf Hr El) as (w & Hw & c & Hc & He). exists w. split; [exact Hw|]. rewrite Hc, He. split.
  - intros [= E]. assert (E0 : gmul (drift F α {[fst e1 := snd e1]} l) (gen1 C) = gzero) by (apply (gadd_cancel_l c); rewrite <- E; module).
    apply gmul_eq_0 in E0 as [E0|E0]; [exact E0|by apply gen1_neq_0 in E0].
  - intros ->. f_equal. rewrite gmul_0. module.
Qed.

(** The error as a polynomial in the trapdoor *)
Definition monomial (N m : nat) (c : Zr) : list Zr := <[m := c]> (replicate N 0).
Fixpoint drift_poly (F : nat) (M : gmap nat Z) (l : list (nat * Z)) : list Zr :=
  match l with
  | [] => replicate (F + 2) 0
  | (i, z) :: l =>
    let M' := <[i := z]> M in let k := size M' in
    vadd (vadd (monomial (F + 2) (k + 1) (zr (sum_of F M') - zr (default 0%Z (M !! k)))) (monomial (F + 2) (F + 1) (zr (sum_of F M) - zr (sum_of F M')))) (drift_poly F M' l)
  end.
Lemma monomial_length N m c : length (monomial N m c) = N.
Proof. unfold monomial. rewrite insert_length, replicate_length. done. Qed.
Lemma drift_poly_length F l : forall M, length (drift_poly F M l) = (F + 2)%nat.
Proof. induction l as [|[i z] l IH]; intros M; cbn [drift_poly]; [apply replicate_length|]. cbv zeta. unfold vadd. rewrite !zip_with_length, !monomial_length, IH. lia. Qed.
Lemma peval_vadd a b x : length a = length b -> peval (vadd a b) x = peval a x + peval b x.
Proof. revert b. induction a as [|y a IH]; intros [|y' b] H; try done. change (vadd (y :: a) (y' :: b)) with (y + y' :: vadd a b). cbn [peval]. rewrite IH by (cbn in H; lia). ring. Qed.
Lemma peval_monomial N m c x : (m < N)%nat -> peval (monomial N m c) x = c * x ^ m.
Proof.
  unfold monomial. revert m. induction N as [|N IH]; intros m Hm; [lia|]. destruct m as [|m]; cbn [replicate insert list_insert peval].
  - rewrite peval_zeros. cbn. ring.
  - change (0 + x * peval (<[m := c]> (replicate N 0)) x = c * x ^ S m). rewrite (IH m) by lia. cbn [zpow]. ring.
Qed.
(** At most F children *)
Definition fits (F : nat) (M : gmap nat Z) : Prop := forall i, is_Some (M !! i) -> (i < F)%nat.
Lemma fits_size F M : fits F M -> (size M <= F)%nat.
Proof.
  intros H. assert (Hdom : dom M ⊆ (list_to_set (seq 0 F) : gset nat)).
  { intros x Hx. apply elem_of_dom in Hx. apply elem_of_list_to_set, elem_of_seq. specialize (H x Hx). lia. }
  apply subseteq_size in Hdom. rewrite size_dom in Hdom. rewrite size_list_to_set in Hdom by apply NoDup_seq. rewrite seq_length in Hdom. exact Hdom.
Qed.
Lemma fits_insert F M i z : (i < F)%nat -> fits F M -> fits F (<[i := z]> M).
Proof. intros Hi H j. destruct (decide (i = j)) as [<-|Hj]; [done|]. rewrite lookup_insert_ne by done. apply H. Qed.
Lemma drift_poly_eval F α l : forall M, fits F M -> Forall (fun e => fst e < F)%nat l -> peval (drift_poly F M l) α = drift F α M l.
Proof.
  induction l as [|[i z] l IH]; intros M HM Hl; cbn [drift_poly drift]; [apply peval_zeros|]. apply Forall_cons in Hl as [Hi Hl]. cbn in Hi.
  pose proof (fits_insert F M i z Hi HM) as HM'. pose proof (fits_size F _ HM') as Hs. cbv zeta.
  rewrite peval_vadd by (unfold vadd; rewrite zip_with_length, !monomial_length, drift_poly_length; lia). rewrite peval_vadd by (rewrite !monomial_length; done).
  rewrite !peval_monomial by lia. rewrite (IH _ HM' Hl). unfold drift_of. cbv zeta. ring.
Qed.
Lemma puts_at_fits F id2path pathof q h : fixed_paths F id2path pathof (S (length q)) h -> Forall (fun e => fst e < F)%nat (puts_at pathof q h).
Proof.
  intros [_ Hg]. apply Forall_forall. intros e He. unfold puts_at in He. apply elem_of_list_omap in He as ([id z] & Hin & E). cbn in E.
  destruct (slot q (pathof id)) as [i|] eqn:Ei; [|done]. injection E as <-. cbn. destruct (Hg id z Hin) as (_ & Hl & HF). apply slot_snoc in Ei; [|done]. rewrite Ei in HF. apply Forall_app in HF as [_ HF]. by apply Forall_cons in HF as [HF _].
Qed.
