(** The invariant of the verkle tree. *)
From Verif Require Export Verkle_enc Prop_sparse.
Local Open Scope Zr_scope.

Lemma seq_split i n : (i < n)%nat -> seq 0 n = seq 0 i ++ i :: seq (S i) (n - S i).
Proof. intros H. replace n with (i + S (n - S i))%nat at 1 by lia. rewrite seq_app. done. Qed.
Lemma total_upd F h M M' i : (i < F)%nat -> (forall j p, j <> i -> length p = h -> M' (j :: p) = M (j :: p)) ->
  total F (S h) M' = (total F (S h) M + (total F h (fun p => M' (i :: p)) - total F h (fun p => M (i :: p))))%Z.
Proof.
  intros Hi H. rewrite !total_S, (seq_split i F Hi), !sumZ_app.
  assert (Ec : forall (f : nat -> Z) j l, sumZ f (j :: l) = (f j + sumZ f l)%Z) by done. rewrite !Ec.
  assert (E : forall l, i ∉ l -> sumZ (fun j => total F h (fun p => M' (j :: p))) l = sumZ (fun j => total F h (fun p => M (j :: p))) l).
  { intros l Hl. apply sumZ_ext. intros j Hj. apply total_ext. intros p Hp. apply H; [|done]. intros ->. done. }
  rewrite !E; [lia|rewrite elem_of_seq; lia..].
Qed.
Lemma mapM_fmap {A B D} (f : B -> res D) (g : A -> B) l : mapM f (g <$> l) = mapM (fun a => f (g a)) l.
Proof. induction l as [|a l IH]; [done|]. rewrite fmap_cons. cbn [mapM]. rewrite IH. done. Qed.
Lemma fold_left_ext {A B} (f g : A -> B -> A) l a : (forall a b, b ∈ l -> f a b = g a b) -> fold_left f l a = fold_left g l a.
Proof. revert a. induction l as [|b l IH]; intros a H; [done|]. cbn. rewrite H by left. apply IH. intros. apply H. by right. Qed.
Lemma fold_left_fmap {A B D} (f : A -> B -> A) (g : D -> B) l a : fold_left f (g <$> l) a = fold_left (fun a d => f a (g d)) l a.
Proof. revert a. induction l as [|b l IH]; intros a; [done|]. rewrite fmap_cons. apply IH. Qed.
Lemma fold_left_const {A B} (l : list B) (a : A) : fold_left (fun a _ => a) l a = a.
Proof. induction l; [done|]. done. Qed.
Lemma fold_single F i (x : Zr) : (i < F)%nat -> fold_left (fun s k => if decide (k = i) then s + x else s) (seq 0 F) (IntToZr 0) = x.
Proof.
  intros H. rewrite (seq_split i F H), fold_left_app. cbn [fold_left]. rewrite decide_True by done.
  assert (E : forall l a, i ∉ l -> fold_left (fun s k => if decide (k = i) then s + x else s) l a = a).
  { intros l a Hl. transitivity (fold_left (fun (a : Zr) (_ : nat) => a) l a); [|apply fold_left_const]. apply fold_left_ext. intros b j Hj. rewrite decide_False; [done|]. intros ->. done. }
  rewrite !E by (rewrite elem_of_seq; lia). change (IntToZr 0) with 0. ring.
Qed.
Lemma indexed_single {A} F i (x : A) : (i < F)%nat -> indexed ((fun k => if decide (k = i) then Some x else None) <$> seq 0 F) = {[i := x]}.
Proof.
  intros H. apply map_eq. intros j. rewrite indexed_lookup, list_lookup_fmap. destruct (decide (j < F)%nat) as [Hj|Hj].
  - rewrite lookup_seq_lt by done. cbn. destruct (decide (j = i)) as [->|]; [by rewrite lookup_singleton|by rewrite lookup_singleton_ne].
  - rewrite lookup_seq_ge by lia. cbn. rewrite lookup_singleton_ne by lia. done.
Qed.
Lemma insert_last2 {A} (f : nat -> A) F a b :
  <[(F + 2 - 1)%nat := b]> (<[(F + 2 - 2)%nat := a]> (f <$> seq 0 (F + 2))) = (f <$> seq 0 F) ++ [a; b].
Proof.
  rewrite seq_app, fmap_app. cbn [seq fmap list_fmap]. replace (F + 2 - 2)%nat with (length (f <$> seq 0 F) + 0)%nat by (rewrite fmap_length, seq_length; lia).
  rewrite insert_app_r. replace (F + 2 - 1)%nat with (length (f <$> seq 0 F) + 1)%nat by (rewrite fmap_length, seq_length; lia). rewrite insert_app_r. done.
Qed.
Lemma nth_fmap_seq (f : nat -> Zr) n j l : (j < n)%nat -> nth j ((f <$> seq 0 n) ++ l) 0 = f j.
Proof.
  intros H. rewrite nth_lookup, lookup_app_l by (rewrite fmap_length, seq_length; done). rewrite list_lookup_fmap, lookup_seq_lt by done. done.
Qed.

Section Tree.
  Context {C : Curve} (F : nat) (α : Zr) (rnd : nat -> Zr) (order : nat -> bool -> gmap nat Zr -> list (nat * Zr)).
  Hypothesis HF : (Z.of_nat F + 2 < 65536)%Z.
  Hypothesis order_perm : forall n b m, order n b m ≡ₚ map_to_list m.
  Notation ppF := (NewPublicParams (C:=C) (F + 2) α).
  Notation upd := (updateInnerVertex ppF rnd order).

  (** What the database holds under a key *)
  Definition stored (db : gmap string bytes) (k : string) (w : Vertex C) : Prop := exists bs : bytes, db !! k = Some bs /\ bs <> [] /\ FromBytes bs = Ret w.
  Lemma stored_fun db k w w' : stored db k w -> stored db k w' -> w = w'.
  Proof. intros (b & H1 & _ & H2) (b' & H3 & _ & H4). congruence. Qed.
  Lemma stored_db (db db' : gmap string bytes) k w : db' !! k = db !! k -> stored db k w -> stored db' k w.
  Proof. intros H (b & H1 & H2 & H3). exists b. rewrite H. done. Qed.
  Lemma stored_fetch st k w : stored (vs_db st) k w -> fetchVertex st (Some (DKey k)) = Ret w.
  Proof. intros (b & H1 & H2 & H3). unfold fetchVertex, db_get. rewrite H1. cbn. destruct b; done. Qed.
  Lemma stored_store st k w : keys_ok (v_digests w) -> keys_ok (v_values w) -> stored (vs_db (store order st k w)) k w.
  Proof. intros H1 H2. eexists. cbn [store vs_db]. rewrite lookup_insert. split; [reflexivity|]. split; [done|]. apply FromBytes_Bytes; [apply order_perm..|done|done]. Qed.

  (** The vectors committed to in a vertex: one entry per child, then the sum and the blinding factor; for the digests
      two zeros *)
  Definition values_vec (w : Vertex C) : list Zr := ((fun j => default 0 (v_values w !! j)) <$> seq 0 F) ++ [v_sum w; v_bf w].
  Definition digests_vec (w : Vertex C) : list Zr := ((fun j => default 0 (v_digests w !! j)) <$> seq 0 F) ++ [0; 0].
  Lemma values_vec_length w : length (values_vec w) = (F + 2)%nat.
  Proof. unfold values_vec. rewrite app_length, fmap_length, seq_length. done. Qed.
  Lemma digests_vec_length w : length (digests_vec w) = (F + 2)%nat.
  Proof. unfold digests_vec. rewrite app_length, fmap_length, seq_length. done. Qed.
  Definition small (m : gmap nat Zr) : Prop := forall j, is_Some (m !! j) -> (j < F)%nat.
  Lemma small_keys m : small m -> keys_ok m.
  Proof. intros H k Hk. specialize (H k Hk). lia. Qed.
  Lemma small_insert m i x : (i < F)%nat -> small m -> small (<[i := x]> m).
  Proof. intros Hi H j. destruct (decide (j = i)) as [->|]; [done|]. rewrite lookup_insert_ne by done. apply H. Qed.
  Lemma small_singleton i (x : Zr) : (i < F)%nat -> small {[i := x]}.
  Proof. intros Hi j. destruct (decide (j = i)) as [->|]; [done|]. rewrite lookup_singleton_ne by done. intros [? [=]]. Qed.
  Lemma small_empty : small ∅.
  Proof. intros j. rewrite lookup_empty. intros [? [=]]. Qed.

  (** The four kinds of callback *)
  Definition only (i : nat) (d : vdat) : list (option vdat) := (fun k => if decide (k = i) then Some d else None) <$> seq 0 F.
  Lemma cb_inner_new st key i ukey wu : (i < F)%nat -> stored (vs_db st) ukey wu ->
    exists V W, let w := MkVertex (rnd (vs_tick st)) {[i := v_sum wu]} {[i := vertex_hash wu]} (v_sum wu) V (Some W) in
      updateInnerLayer ppF rnd order st key None (only i (DKey ukey)) i = Ret (store order st key w, Some (DKey key)) /\
      Commit ppF (values_vec w) = Ret V /\ Commit ppF (digests_vec w) = Ret W.
  Proof.
    intros Hi Hu. unfold updateInnerLayer, only. rewrite mapM_fmap.
    rewrite (mapM_ret _ (fun k => if decide (k = i) then Some (v_sum wu, vertex_hash wu) else None)).
    2: { intros k _. destruct (decide (k = i)); [|done]. rewrite (stored_fetch st ukey wu Hu). cbn [rbind]. rewrite Vertex_Digest_spec. done. }
    cbn [rbind]. rewrite fold_left_fmap.
    rewrite (fold_left_ext _ (fun s k => if decide (k = i) then s + v_sum wu else s)) by (intros a b _; destruct (decide (b = i)); done).
    rewrite fold_single by done. rewrite <- !list_fmap_compose.
    rewrite (list_fmap_ext ((fun o : option (Zr * Zr) => match o with Some (x, _) => Some x | None => None end) ∘ _) (fun k => if decide (k = i) then Some (v_sum wu) else None)) by (intros _ k _; cbn; destruct (decide (k = i)); done).
    rewrite (list_fmap_ext ((fun o : option (Zr * Zr) => match o with Some (_, g) => Some g | None => None end) ∘ _) (fun k => if decide (k = i) then Some (vertex_hash wu) else None)) by (intros _ k _; cbn; destruct (decide (k = i)); done).
    rewrite !indexed_single by done. 
    set (w := MkVertex (rnd (vs_tick st)) {[i := v_sum wu]} {[i := vertex_hash wu]} (v_sum wu) (gen1 C) None).
    rewrite (list_fmap_ext ((fun o : option (Zr * Zr) => match o with Some (x, _) => x | None => IntToZr 0 end) ∘ _) (fun j => default 0 (v_values w !! j))).
    2: { intros _ k _. cbn. destruct (decide (k = i)) as [->|]; [by rewrite lookup_singleton|by rewrite lookup_singleton_ne]. }
    rewrite (list_fmap_ext ((fun o : option (Zr * Zr) => match o with Some (_, g) => g | None => IntToZr 0 end) ∘ _) (fun j => default 0 (v_digests w !! j))).
    2: { intros _ k _. cbn. destruct (decide (k = i)) as [->|]; [by rewrite lookup_singleton|by rewrite lookup_singleton_ne]. }
    change (_ ++ [v_sum wu; rnd (vs_tick st)]) with (values_vec w). change (_ ++ [IntToZr 0; IntToZr 0]) with (digests_vec w).
    rewrite !commit_spec by (rewrite ?values_vec_length, ?digests_vec_length; lia). cbn [rbind]. eexists _, _. cbv zeta. split; [reflexivity|]. split; [|].
    - change (Commit ppF (values_vec w) = Ret (commitment (F + 2) α (values_vec w))). apply commit_spec; [apply values_vec_length|lia].
    - change (Commit ppF (digests_vec w) = Ret (commitment (F + 2) α (digests_vec w))). apply commit_spec; [apply digests_vec_length|lia].
  Qed.
  Lemma cb_inner_upd st key nd desc i w ukey wu : (i < F)%nat -> stored (vs_db st) key w -> desc !! i = Some (Some (DKey ukey)) -> stored (vs_db st) ukey wu ->
    small (v_values w) -> (forall j, is_Some (v_values w !! j) -> is_Some (v_digests w !! j)) -> (forall j, v_values w !! j = None -> v_digests w !! j = None) ->
    exists V W, let w' := MkVertex (v_bf w) (<[i := v_sum wu]> (v_values w)) (<[i := vertex_hash wu]> (v_digests w)) (v_sum w + (v_sum wu - default 0 (v_values w !! i))) V (Some W) in
      updateInnerLayer ppF rnd order st key (Some nd) desc i = Ret (store order st key w', Some (DKey key)) /\
      Commit ppF (values_vec w') = Ret V /\ Commit ppF (digests_vec w') = Ret W.
  Proof.
    intros Hi Hw Hd Hu Hs He Hn. unfold updateInnerLayer. rewrite (stored_fetch st key w Hw). cbn [rbind]. unfold idx at 1. rewrite Hd. cbn [rbind].
    rewrite (stored_fetch st ukey wu Hu). cbn [rbind]. rewrite Vertex_Digest_spec. cbn [rbind]. change (pp_N ppF) with (F + 2)%nat. unfold updateSum.
    set (sum := v_sum w + (v_sum wu - default (IntToZr 0) (v_values w !! i))).
    set (w1 := MkVertex (v_bf w) (<[i := v_sum wu]> (v_values w)) (<[i := vertex_hash wu]> (v_digests w)) sum (gen1 C) None).
    rewrite (mapM_ret _ (fun j => default 0 (v_digests w1 !! j))).
    2: { intros j _. cbn. destruct (decide (j = i)) as [->|]; [rewrite !lookup_insert; done|]. rewrite !lookup_insert_ne by done. destruct (v_values w !! j) as [x|] eqn:E.
         - destruct (He j) as [g ->]; [by rewrite E|done].
         - rewrite (Hn j E). done. }
    cbn [rbind]. rewrite (proj2 (Nat.leb_le 2 (F + 2))) by lia. rewrite insert_last2. rewrite (seq_app F 2), fmap_app. cbn [seq fmap list_fmap].
    assert (Hs1 : forall j, (F <= j)%nat -> v_digests w1 !! j = None).
    { intros j Hj. cbn. rewrite lookup_insert_ne by lia. apply Hn. destruct (v_values w !! j) eqn:E; [|done]. specialize (Hs j ltac:(rewrite E; done)). lia. }
    rewrite !Hs1 by lia. cbn [default from_option id].
    change (_ ++ [sum; v_bf w]) with (values_vec w1). change (_ ++ [0; 0]) with (digests_vec w1).
    rewrite !commit_spec by (rewrite ?values_vec_length, ?digests_vec_length; lia). cbn [rbind]. eexists _, _. cbv zeta. split; [reflexivity|]. split; [|].
    - change (Commit ppF (values_vec w1) = Ret (commitment (F + 2) α (values_vec w1))). apply commit_spec; [apply values_vec_length|lia].
    - change (Commit ppF (digests_vec w1) = Ret (commitment (F + 2) α (digests_vec w1))). apply commit_spec; [apply digests_vec_length|lia].
  Qed.
  Lemma cb_bottom_new st key i z : (i < F)%nat ->
    exists V, let w := MkVertex (rnd (vs_tick st)) {[i := zr z]} ∅ (zr z) V None in
      updateLayerAboveLeaves ppF rnd order st key None (only i (DInt z)) i = Ret (store order st key w, Some (DKey key)) /\
      Commit ppF (values_vec w) = Ret V.
  Proof.
    intros Hi. unfold updateLayerAboveLeaves, only. rewrite mapM_fmap.
    rewrite (mapM_ret _ (fun k => if decide (k = i) then Some (zr z) else None)) by (intros k _; destruct (decide (k = i)); done).
    cbn [rbind]. rewrite fold_left_fmap.
    rewrite (fold_left_ext _ (fun s k => if decide (k = i) then s + zr z else s)) by (intros a b _; destruct (decide (b = i)); done).
    rewrite fold_single by done. rewrite <- !list_fmap_compose. rewrite !indexed_single by done. 
    set (w := MkVertex (rnd (vs_tick st)) {[i := zr z]} ∅ (zr z) (gen1 C) None).
    rewrite (list_fmap_ext (default (IntToZr 0) ∘ _) (fun j => default 0 (v_values w !! j))).
    2: { intros _ k _. cbn. destruct (decide (k = i)) as [->|]; [by rewrite lookup_singleton|by rewrite lookup_singleton_ne]. }
    change (_ ++ [zr z; rnd (vs_tick st)]) with (values_vec w).
    rewrite !commit_spec by (rewrite ?values_vec_length, ?digests_vec_length; lia). cbn [rbind]. eexists. cbv zeta. split; [reflexivity|].
    change (Commit ppF (values_vec w) = Ret (commitment (F + 2) α (values_vec w))). apply commit_spec; [apply values_vec_length|lia].
  Qed.
  (** What an update does to the commitment of a vertex above the leaves: the value is updated at its index i, but the sum
      at index k, the number of values, as if the old sum were the old value at k. *)
  Definition bottom_V (w : Vertex C) (i : nat) (z : Z) : G1 C :=
    let values := <[i := zr z]> (v_values w) in
    let k := size values in
    let sum := v_sum w + (zr z - default 0 (v_values w !! i)) in
    gadd (gadd (v_V w) (gmul ((zr z - default 0 (v_values w !! i)) * α ^ (i + 1)) (gen1 C))) (gmul ((sum - default 0 (v_values w !! k)) * α ^ (k + 1)) (gen1 C)).
  Lemma cb_bottom_upd st key nd desc i w z : (i < F)%nat -> stored (vs_db st) key w -> desc !! i = Some (Some (DInt z)) -> small (v_values w) ->
    updateLayerAboveLeaves ppF rnd order st key (Some nd) desc i =
      Ret (store order st key (MkVertex (v_bf w) (<[i := zr z]> (v_values w)) (v_digests w) (v_sum w + (zr z - default 0 (v_values w !! i))) (bottom_V w i z) (v_W w)), Some (DKey key)).
  Proof.
    intros Hi Hw Hd Hs. unfold updateLayerAboveLeaves. rewrite (stored_fetch st key w Hw). cbn [rbind]. unfold idx at 1. rewrite Hd. cbn [rbind].
    change (pp_N ppF) with (F + 2)%nat. unfold updateSum.
    pose proof (size_bound _ F (small_insert _ i (zr z) Hi Hs)) as Hk. unfold IntToZr in *. change (zr 0) with 0 in *.
    rewrite update_spec by (rewrite ?app_length, ?fmap_length, ?seq_length; lia). cbn [rbind].
    rewrite update_spec by (rewrite ?app_length, ?fmap_length, ?seq_length; lia). cbn [rbind].
    rewrite !nth_fmap_seq by lia. done.
  Qed.

  (** ** The invariant *)
  (** The stored vertex at path q, h+1 levels above the leaves; [ex]: which children exist; [M]: liabilities below; [n]:
      number of Puts so far through the vertex *)
  Definition wspec (h : nat) (q : path) (ex : nat -> bool) (M : path -> option Z) (n : nat) (db : gmap string bytes) (w : Vertex C) : Prop :=
    v_sum w = zr (total F (S h) M) /\
    (forall i, v_values w !! i = if ex i then Some (zr (total F h (fun p => M (i :: p)))) else None) /\
    match h with
    | O => v_digests w = ∅ /\ v_W w = None /\ (n = 1%nat -> Commit ppF (values_vec w) = Ret (v_V w))
    | S _ =>
      (forall i, if ex i then exists u, stored db (path_key (q ++ [i])) u /\ v_digests w !! i = Some (vertex_hash u) else v_digests w !! i = None) /\
      Commit ppF (values_vec w) = Ret (v_V w) /\ exists W, v_W w = Some W /\ Commit ppF (digests_vec w) = Ret W
    end.
  Definition has_child (u : vtx vdat) (i : nat) : bool := match mget (vdesc u) i with Some _ => true | None => false end.
  Fixpoint VInv (h : nat) (q : path) (u : vtx vdat) (M : path -> option Z) (K : path -> nat) (db : gmap string bytes) : Prop :=
    match h with
    | O => exists z, vdata u = Some (DInt z) /\ M [] = Some z
    | S h =>
      vkey u = path_key q /\ vdata u = Some (DKey (path_key q)) /\ (1 <= K [])%nat /\
      (forall i, match mget (vdesc u) i with
                 | Some c => (i < F)%nat /\ VInv h (q ++ [i]) c (fun p => M (i :: p)) (fun p => K (i :: p)) db
                 | None => forall p, length p = h -> M (i :: p) = None
                 end) /\
      exists w, stored db (path_key q) w /\ wspec h q (has_child u) M (K []) db w
    end.
  Definition VPre (h : nat) (q : path) (u : vtx vdat) (M : path -> option Z) (K : path -> nat) (db : gmap string bytes) : Prop :=
    VInv h q u M K db \/ (u = Vtx (path_key q) None [] /\ forall p, length p = h -> M p = None).

  Lemma wspec_small h q u M n db w : wspec h q (has_child u) M n db w -> (forall i, has_child u i = true -> (i < F)%nat) -> small (v_values w).
  Proof. intros (_ & H & _) Hc j. rewrite H. destruct (has_child u j) eqn:E; [auto|]. intros [? [=]]. Qed.
  Lemma VInv_db h : forall q u M K (db db' : gmap string bytes), VInv h q u M K db -> (forall r, (length r < h)%nat -> db' !! path_key (q ++ r) = db !! path_key (q ++ r)) -> VInv h q u M K db'.
  Proof.
    induction h as [|h IH]; intros q u M K db db' H Hdb; [exact H|]. cbn [VInv] in *. destruct H as (H1 & H2 & H3 & H4 & w & H5 & H6). split_and!; try done.
    - intros i. specialize (H4 i). destruct (mget (vdesc u) i) as [c|]; [|done]. split; [apply H4|]. apply (IH _ _ _ _ db); [apply H4|]. intros r Hr. rewrite <- app_assoc. apply Hdb. cbn. lia.
    - exists w. split; [apply (stored_db db); [|done]; rewrite <- (app_nil_r q); apply Hdb; cbn; lia|]. destruct H6 as (W1 & W2 & W3). split; [done|]. split; [done|].
      destruct h as [|h]; [done|]. destruct W3 as (W3 & W4). split; [|done]. intros i. specialize (W3 i). destruct (has_child u i); [|done].
      destruct W3 as (c & Hc & Hd). exists c. split; [|done]. apply (stored_db db); [|done]. apply Hdb. cbn. lia.
  Qed.
  Lemma VInv_ext h : forall q u M M' K K' db, VInv h q u M K db -> (forall p, length p = h -> M p = M' p) -> (forall r, (length r < h)%nat -> K r = K' r) -> VInv h q u M' K' db.
  Proof.
    induction h as [|h IH]; intros q u M M' K K' db H HM HK; cbn [VInv] in *; [rewrite <- (HM []) by done; exact H|]. destruct H as (H1 & H2 & H3 & H4 & w & H5 & H6).
    assert (HM' : forall i p, length p = h -> M (i :: p) = M' (i :: p)) by (intros i p Hp; apply HM; cbn; lia).
    split_and!; try done.
    - rewrite <- HK by (cbn; lia). done.
    - intros i. specialize (H4 i). destruct (mget (vdesc u) i) as [c|].
      + split; [apply H4|]. apply (IH _ _ (fun p => M (i :: p)) _ (fun p => K (i :: p))); [apply H4|auto|]. intros r Hr. apply HK. cbn. lia.
      + intros p Hp. rewrite <- HM' by done. by apply H4.
    - exists w. split; [done|]. destruct H6 as (W1 & W2 & W3). split; [rewrite W1; f_equal; by apply total_ext|]. split.
      + intros i. rewrite W2. destruct (has_child u i); [|done]. do 2 f_equal. apply total_ext. auto.
      + destruct h as [|h]; [|done]. rewrite <- HK by (cbn; lia). done.
  Qed.
  Definition upd_count (K : path -> nat) (p : path) : path -> nat := fun r => if decide (r `prefix_of` p) then S (K r) else K r.
  Lemma upd_count_cons K i p r : upd_count K (i :: p) (i :: r) = upd_count (fun s => K (i :: s)) p r.
  Proof.
    unfold upd_count. destruct (decide (r `prefix_of` p)) as [H|H]; [rewrite decide_True by (by apply prefix_cons); done|]. rewrite decide_False; [done|]. intros H'. apply H. by apply prefix_cons_inv_2 in H'.
  Qed.
  Lemma upd_path_cons M i p z r : upd_path M (i :: p) z (i :: r) = upd_path (fun s => M (i :: s)) p z r.
  Proof. unfold upd_path. destruct (decide (p = r)), (decide (i :: p = i :: r)); congruence. Qed.
  Lemma upd_path_other M i p z j r : j <> i -> upd_path M (i :: p) z (j :: r) = M (j :: r).
  Proof. intros H. unfold upd_path. rewrite decide_False by congruence. done. Qed.
  Lemma upd_count_other K i p j r : j <> i -> upd_count K (i :: p) (j :: r) = K (j :: r).
  Proof. intros H. unfold upd_count. rewrite decide_False; [done|]. intros Hp. by apply prefix_cons_inv_1 in Hp. Qed.

  Lemma path_key_neq q r r' : r <> r' -> path_key (q ++ r) <> path_key (q ++ r').
  Proof. intros H E. apply path_key_inj in E. by apply app_inv_head in E. Qed.

  (** A Put never fails; it re-establishes the invariant; it writes only the vertices on its path; existing ones keep
      their blinding factor, and the one above the leaf gets the commitment bottom_V; each vertex on the path takes one
      random value, bottom-up, and the new ones have it as their blinding factor. *)
  Lemma verkle_put p : forall st v q M K z, Forall (fun i => i < F)%nat p -> VPre (length p) q v M K (vs_db st) ->
    exists st' v', put_at upd F st v (path_key q) p (Some (DInt z)) = Ret (st', v') /\
      VInv (length p) q v' (upd_path M p z) (upd_count K p) (vs_db st') /\
      (forall k, (forall r, r `prefix_of` p -> (length r < length p)%nat -> k <> path_key (q ++ r)) -> vs_db st' !! k = vs_db st !! k) /\
      (forall r i s u w, p = r ++ i :: s -> at_path v r = Some u -> vdata u <> None -> stored (vs_db st) (path_key (q ++ r)) w ->
        exists w', stored (vs_db st') (path_key (q ++ r)) w' /\ v_bf w' = v_bf w /\ (s = [] -> v_V w' = bottom_V w i z)) /\
      vs_tick st' = (vs_tick st + length p)%nat /\
      (forall r i s, p = r ++ i :: s -> match at_path v r with Some u => vdata u = None | None => True end ->
        exists w', stored (vs_db st') (path_key (q ++ r)) w' /\ v_bf w' = rnd (vs_tick st + length s)%nat).
  Proof.
    induction p as [|i p IH]; intros st v q M K z Hp Hpre.
    - eexists _, _. split; [reflexivity|]. split; [exists z; split; [done|]; unfold upd_path; by rewrite decide_True|]. split; [done|].
      split; [intros [|? ?] i s u w H; done|]. split; [cbn [length]; lia|]. intros [|? ?] i s H; done.
    - apply Forall_cons in Hp as [Hi Hp]. cbn [length] in Hpre |- *.
      assert (Hkey : vkey v = path_key q) by (destruct Hpre as [[H _]|[-> _]]; done).
      assert (Hchild : forall j, match mget (vdesc v) j with
                 | Some c => (j < F)%nat /\ VInv (length p) (q ++ [j]) c (fun p => M (j :: p)) (fun p => K (j :: p)) (vs_db st)
                 | None => forall r, length r = length p -> M (j :: r) = None end).
      { destruct Hpre as [(_ & _ & _ & H & _)|[-> H]]; [done|]. intros j. cbn. intros r Hr. apply H. cbn. lia. }
      destruct (IH st (child_or_new v (path_key q) i) (q ++ [i]) (fun r => M (i :: r)) (fun r => K (i :: r)) z Hp) as (st1 & u' & H1 & Hinv & Hframe & Hsteps & Htick & Hnew).
      { specialize (Hchild i). unfold child_or_new. destruct (mget (vdesc v) i) as [c|]; [left; apply Hchild|right]. rewrite path_key_snoc. done. }
      rewrite path_key_snoc in H1.
      assert (Hrange : forall k u, mget (mset (vdesc v) i u') k = Some u -> (k < F)%nat).
      { intros k u. rewrite mget_mset. destruct (decide (k = i)) as [->|]; [done|]. intros Hk. specialize (Hchild k). rewrite Hk in Hchild. apply Hchild. }
      set (raw := (fun k => match mget (mset (vdesc v) i u') k with Some u => vdata u | None => None end) <$> seq 0 F).
      set (M' := upd_path M (i :: p) z). set (K' := upd_count K (i :: p)).
      assert (HK' : K' [] = S (K [])) by (unfold K', upd_count; rewrite decide_True by apply prefix_nil; done).
      assert (Htot : total F (S (length p)) M' = (total F (S (length p)) M + (total F (length p) (fun r => M' (i :: r)) - total F (length p) (fun r => M (i :: r))))%Z).
      { apply total_upd; [done|]. intros j r Hj _. by apply upd_path_other. }
      assert (Hother : forall j, j <> i -> total F (length p) (fun r => M' (j :: r)) = total F (length p) (fun r => M (j :: r))).
      { intros j Hj. apply total_ext. intros r _. by apply upd_path_other. }
      assert (Hinv' : VInv (length p) (q ++ [i]) u' (fun r => M' (i :: r)) (fun r => K' (i :: r)) (vs_db st1)).
      { apply (VInv_ext _ _ _ (upd_path (fun r => M (i :: r)) p z) _ (upd_count (fun r => K (i :: r)) p)); [done|..]; intros; symmetry; [apply upd_path_cons|apply upd_count_cons]. }
      assert (Hq1 : vs_db st1 !! path_key q = vs_db st !! path_key q).
      { apply Hframe. intros r _ _ E. apply path_key_inj in E. apply (f_equal length) in E. rewrite !app_length in E. cbn in E. lia. }
      assert (Hsib : forall j r, j <> i -> vs_db st1 !! path_key (q ++ j :: r) = vs_db st !! path_key (q ++ j :: r)).
      { intros j r Hj. apply Hframe. intros r' _ _ E. apply path_key_inj in E. rewrite <- app_assoc in E. apply app_inv_head in E. cbn in E. congruence. }
      (* the callback, in all cases *)
      assert (Hcb : exists w', upd st1 (path_key q) (vdata v) raw (match p with [] => true | _ => false end) i = Ret (store order st1 (path_key q) w', Some (DKey (path_key q))) /\
        keys_ok (v_digests w') /\ keys_ok (v_values w') /\
        wspec (length p) q (has_child (Vtx (path_key q) (Some (DKey (path_key q))) (mset (vdesc v) i u'))) M' (K' []) (vs_db st1) w' /\
        (vdata v <> None -> forall w, stored (vs_db st) (path_key q) w -> v_bf w' = v_bf w /\ (p = [] -> v_V w' = bottom_V w i z)) /\
        (vdata v = None -> v_bf w' = rnd (vs_tick st1))).
      { unfold updateInnerVertex. destruct Hpre as [(_ & Hdata & HK & _ & w & Hw & Hspec)|[Hv Hempty]].
        - (* existing vertex *)
          assert (Hsm : small (v_values w)).
          { apply (wspec_small _ _ _ _ _ _ _ Hspec). intros j. unfold has_child. specialize (Hchild j). destruct (mget (vdesc v) j); [intros _; apply Hchild|done]. }
          assert (Hw1 : stored (vs_db st1) (path_key q) w) by (by apply (stored_db (vs_db st))).
          assert (Hraw : raw !! i = Some (vdata u')).
          { unfold raw. rewrite list_lookup_fmap, lookup_seq_lt by done. cbn [fmap option_fmap option_map Nat.add]. rewrite mget_mset, decide_True by done. done. }
          destruct Hspec as (S1 & S2 & S3). rewrite Hdata.
          assert (Hold : default 0 (v_values w !! i) = zr (total F (length p) (fun r => M (i :: r)))).
          { rewrite S2. specialize (Hchild i). unfold has_child. destruct (mget (vdesc v) i); [done|]. rewrite (total_empty _ _ _ Hchild). done. }
          assert (Hchild' : forall j, has_child (Vtx (path_key q) (Some (DKey (path_key q))) (mset (vdesc v) i u')) j = if decide (j = i) then true else has_child v j).
          { intros j. unfold has_child. cbn [vdesc]. rewrite mget_mset. destruct (decide (j = i)); done. }
          assert (Hvals : forall x, x = zr (total F (length p) (fun r => M' (i :: r))) -> forall j, <[i := x]> (v_values w) !! j =
              if has_child (Vtx (path_key q) (Some (DKey (path_key q))) (mset (vdesc v) i u')) j then Some (zr (total F (length p) (fun r => M' (j :: r)))) else None).
          { intros x -> j. rewrite Hchild'. destruct (decide (j = i)) as [->|Hj]; [by rewrite lookup_insert|]. rewrite lookup_insert_ne, S2, Hother by done. done. }
          destruct p as [|i2 p2] eqn:Ep.
          + (* bottom *)
            cbn [length VInv] in Hinv'. destruct Hinv' as (z' & Hz & Hz').
            assert (z' = z) as -> by (unfold M', upd_path in Hz'; rewrite decide_True in Hz' by done; congruence).
            rewrite Hz in Hraw.
            eexists. split; [exact (cb_bottom_upd st1 (path_key q) _ raw i w z Hi Hw1 Hraw Hsm)|]. cbn [length] in *. destruct S3 as (D1 & D2 & _).
            split; [cbn [v_digests]; rewrite D1; apply small_keys, small_empty|]. split; [cbn [v_values]; by apply small_keys, small_insert|].
            assert (Enew : zr z = zr (total F 0 (fun r => M' (i :: r)))) by (rewrite total_0, Hz'; done).
            split.
            * unfold wspec. cbn [v_sum v_values v_digests v_W]. split; [|split; [by apply Hvals|split; [done|split; [done|]]]].
              -- rewrite Htot, zr_add, zr_sub, <- Hold, <- Enew, S1. done.
              -- intros E. lia.
            * split; [|done]. intros _ w0 Hw0. rewrite (stored_fun _ _ _ _ Hw0 Hw). done.
          + (* inner *)
            cbn [length VInv] in Hinv'. destruct Hinv' as (_ & Hdu & _ & _ & wu & Hwu & Hsu). rewrite Hdu in Hraw. cbn [length] in *. destruct S3 as (D1 & D2 & D3).
            assert (He : forall j, is_Some (v_values w !! j) -> is_Some (v_digests w !! j)).
            { intros j. rewrite S2. specialize (D1 j). destruct (has_child v j); [|intros [? [=]]]. destruct D1 as (x & _ & ->). done. }
            assert (Hn : forall j, v_values w !! j = None -> v_digests w !! j = None).
            { intros j. rewrite S2. specialize (D1 j). destruct (has_child v j); done. }
            destruct (cb_inner_upd st1 (path_key q) (DKey (path_key q)) raw i w _ wu Hi Hw1 Hraw Hwu Hsm He Hn) as (V & W & Hcb & HV & HW).
            eexists. split; [exact Hcb|].
            assert (Hsd : small (v_digests w)).
            { intros j Hj. apply Hsm. destruct (v_values w !! j) eqn:E; [done|]. rewrite (Hn j E) in Hj. by destruct Hj. }
            split; [cbn [v_digests]; by apply small_keys, small_insert|]. split; [cbn [v_values]; by apply small_keys, small_insert|].
            assert (Enew : v_sum wu = zr (total F (S (length p2)) (fun r => M' (i :: r)))) by (apply Hsu).
            split.
            * unfold wspec. cbn [v_sum v_values v_digests v_W]. split; [|split; [by apply Hvals|split; [|split; [done|exists W; done]]]].
              -- rewrite Htot, zr_add, zr_sub, <- Hold, <- Enew, S1. done.
              -- intros j. rewrite Hchild'. destruct (decide (j = i)) as [->|Hj]; [exists wu; rewrite lookup_insert; done|]. rewrite lookup_insert_ne by done.
                 specialize (D1 j). destruct (has_child v j); [|done]. destruct D1 as (x & Hx & Hx'). exists x. split; [|done]. apply (stored_db (vs_db st)); [|done]. by apply Hsib.
            * split; [|done]. intros _ w0 Hw0. rewrite (stored_fun _ _ _ _ Hw0 Hw). done.
        - (* new vertex *)
          assert (Hraw : forall d, vdata u' = Some d -> raw = only i d).
          { intros d Hd. unfold raw, only. rewrite Hv. apply list_fmap_ext. intros _ k _. cbn. destruct (decide (k = i)); done. }
          assert (Hchild' : forall j, has_child (Vtx (path_key q) (Some (DKey (path_key q))) (mset (vdesc v) i u')) j = if decide (j = i) then true else false).
          { intros j. unfold has_child. cbn [vdesc]. rewrite mget_mset, Hv. destruct (decide (j = i)); done. }
          assert (Hsum : total F (S (length p)) M' = total F (length p) (fun r => M' (i :: r))).
          { rewrite Htot, (total_empty F (S (length p)) M) by done. rewrite (total_empty F (length p) (fun r => M (i :: r))); [lia|]. intros r Hr. apply Hempty. cbn. lia. }
          assert (Hvals : forall x, x = zr (total F (length p) (fun r => M' (i :: r))) -> forall j, ({[i := x]} : gmap nat Zr) !! j =
              if has_child (Vtx (path_key q) (Some (DKey (path_key q))) (mset (vdesc v) i u')) j then Some (zr (total F (length p) (fun r => M' (j :: r)))) else None).
          { intros x -> j. rewrite Hchild'. destruct (decide (j = i)) as [->|Hj]; [by rewrite lookup_singleton|]. by rewrite lookup_singleton_ne. }
          assert (Hnd : vdata v = None) by (by rewrite Hv). rewrite Hnd.
          destruct p as [|i2 p2] eqn:Ep.
          + cbn [length VInv] in Hinv'. destruct Hinv' as (z' & Hz & Hz'). rewrite (Hraw _ Hz). destruct (cb_bottom_new st1 (path_key q) i z' Hi) as (V & Hcb & HV).
            eexists. split; [exact Hcb|]. split; [apply small_keys, small_empty|]. split; [by apply small_keys, small_singleton|]. split; [|done].
            assert (Enew : zr z' = zr (total F 0 (fun r => M' (i :: r)))) by (rewrite total_0, Hz'; done).
            unfold wspec. cbn [length v_sum v_values v_digests v_W] in *. rewrite Hsum. split; [done|]. split; [by apply Hvals|]. done.
          + cbn [length VInv] in Hinv'. destruct Hinv' as (_ & Hdu & _ & _ & wu & Hwu & Hsu). rewrite (Hraw _ Hdu). cbn [length] in *.
            destruct (cb_inner_new st1 (path_key q) i _ wu Hi Hwu) as (V & W & Hcb & HV & HW).
            eexists. split; [exact Hcb|]. split; [by apply small_keys, small_singleton|]. split; [by apply small_keys, small_singleton|]. split; [|done].
            assert (Enew : v_sum wu = zr (total F (S (length p2)) (fun r => M' (i :: r)))) by (apply Hsu).
            unfold wspec. cbn [v_sum v_values v_digests v_W]. rewrite Hsum. split; [done|]. split; [by apply Hvals|]. split; [|split; [done|exists W; done]].
            intros j. rewrite Hchild'. destruct (decide (j = i)) as [->|Hj]; [exists wu; rewrite lookup_singleton; done|]. by rewrite lookup_singleton_ne. }
      destruct Hcb as (w' & Hcb & Hkd & Hkv & Hspec' & Hbf & Hbfn).
      set (st' := store order st1 (path_key q) w') in *.
      assert (Hdb : forall k, k <> path_key q -> vs_db st' !! k = vs_db st1 !! k) by (intros k Hk; cbn; by rewrite lookup_insert_ne).
      assert (Hdb' : forall j r, vs_db st' !! path_key (q ++ j :: r) = vs_db st1 !! path_key (q ++ j :: r)).
      { intros j r. apply Hdb. intros E. rewrite <- (app_nil_r q) in E at 2. apply path_key_inj, app_inv_head in E. done. }
      exists st', (Vtx (path_key q) (Some (DKey (path_key q))) (mset (vdesc v) i u')). split_and!.
      + pose proof (put_at_cons upd F st v (path_key q) i p (Some (DInt z)) st1 u' st' (Some (DKey (path_key q))) H1 Hrange) as Hput. rewrite Hkey in Hput. apply Hput. exact Hcb.
      + cbn [VInv vkey vdata vdesc]. split; [done|]. split; [done|]. split; [lia|]. split.
        * intros j. rewrite mget_mset. destruct (decide (j = i)) as [->|Hj].
          -- split; [done|]. apply (VInv_db _ _ _ _ _ (vs_db st1)); [done|]. intros r _. rewrite <- app_assoc. apply Hdb'.
          -- specialize (Hchild j). destruct (mget (vdesc v) j) as [c|].
             ++ split; [apply Hchild|]. apply (VInv_db _ _ _ _ _ (vs_db st)).
                ** apply (VInv_ext _ _ _ (fun r => M (j :: r)) _ (fun r => K (j :: r))); [apply Hchild|..]; intros; symmetry; [by apply upd_path_other|by apply upd_count_other].
                ** intros r _. rewrite <- app_assoc. cbn [app]. rewrite Hdb'. by apply Hsib.
             ++ intros r Hr. unfold M'. rewrite upd_path_other by done. by apply Hchild.
        * exists w'. split; [apply stored_store; done|]. destruct Hspec' as (S1 & S2 & S3). split; [done|]. split; [done|]. destruct (length p) as [|h']; [done|].
          destruct S3 as (D1 & D2). split; [|done]. intros j. specialize (D1 j). destruct (has_child _ j); [|done]. destruct D1 as (x & Hx & Hx'). exists x. split; [|done].
          apply (stored_db (vs_db st1)); [apply Hdb'|done].
      + intros k Hk. rewrite Hdb by (specialize (Hk [] (prefix_nil _) ltac:(cbn; lia)); rewrite app_nil_r in Hk; done). apply Hframe. intros r Hr Hl E. rewrite <- app_assoc in E. cbn [app] in E.
        apply (Hk (i :: r)); [by apply prefix_cons|cbn; lia|done].
      + intros r j s u w Hsplit Hu Hd Hw. destruct r as [|j' r].
        * cbn in Hsplit. injection Hsplit as -> ->. cbn in Hu. injection Hu as <-. rewrite app_nil_r in *. exists w'. destruct (Hbf Hd w Hw) as [B1 B2].
          split; [apply stored_store; done|]. done.
        * cbn in Hsplit. injection Hsplit as -> Hsplit. cbn [at_path] in Hu.
          destruct (Hsteps r j s u w Hsplit) as (w2 & Hw2 & Hb).
          -- unfold child_or_new. destruct (mget (vdesc v) j'); [done|done].
          -- done.
          -- rewrite <- app_assoc. exact Hw.
          -- exists w2. split; [|done]. rewrite <- app_assoc in Hw2. apply (stored_db (vs_db st1)); [apply Hdb'|done].
      + cbn [store vs_tick st' length]. lia.
      + intros r j s Hsplit Hu. destruct r as [|j' r].
        * cbn in Hsplit. injection Hsplit as -> ->. cbn in Hu. rewrite app_nil_r. exists w'. split; [apply stored_store; done|]. rewrite (Hbfn Hu), Htick. done.
        * cbn in Hsplit. injection Hsplit as -> Hsplit. cbn [at_path] in Hu.
          destruct (Hnew r j s Hsplit) as (w2 & Hw2 & Hb).
          -- unfold child_or_new. destruct (mget (vdesc v) j') as [c|]; [done|]. destruct r; done.
          -- exists w2. split; [|done]. rewrite <- app_assoc in Hw2. apply (stored_db (vs_db st1)); [apply Hdb'|done].
  Qed.

  (** The invariant at a vertex below *)
  Lemma VInv_at q' : forall h q u M K db, VInv (length q' + h) q u M K db ->
    match at_path u q' with
    | Some c => VInv h (q ++ q') c (fun p => M (q' ++ p)) (fun p => K (q' ++ p)) db
    | None => forall p, length p = h -> M (q' ++ p) = None
    end.
  Proof.
    induction q' as [|i q' IH]; intros h q u M K db H; [rewrite app_nil_r; exact H|]. cbn [length Nat.add VInv] in H. destruct H as (_ & _ & _ & H & _). specialize (H i). cbn [at_path].
    destruct (mget (vdesc u) i) as [c|].
    - destruct H as [_ H]. apply IH in H. destruct (at_path c q'); [|done]. rewrite <- app_assoc in H. exact H.
    - intros p Hp. apply H. rewrite app_length. lia.
  Qed.
End Tree.
