(** Releasing cached chunks, and whole programs. *)
From Coq Require Import List ZArith Bool Lia.
From Verif Require Import AllocModel AllocSpec AllocProofs AllocProofs2 AllocProofs3 AllocProofs4.
Import ListNotations.
Local Open Scope list_scope.
Local Open Scope Z_scope.

Lemma held_bytes_app d a b : held_bytes d (a ++ b) = held_bytes d a + held_bytes d b.
Proof. unfold held_bytes. induction a as [|x a IH]; cbn [app map fold_right]; [lia|]. rewrite IH. lia. Qed.

Lemma filter_other (f : chunk -> nat * nat * Z) (c : nat) L : (forall k, In k L -> fst (fst (f k)) <> c) ->
  filter (fun x => negb (Nat.eqb (fst (fst x)) c)) (map f L) = map f L.
Proof.
  induction L as [|k L IH]; intros H; cbn [map filter]; auto.
  rewrite (proj2 (Nat.eqb_neq _ c)) by (apply H; left; auto). cbn [negb]. f_equal. apply IH. intros z Hz. apply H. right. auto.
Qed.

Lemma remove_ok s L1 L2 c d i live sm k : Inv None s (L1 ++ (c, d, [i]) :: L2) live -> In (k, i) (caches s sm d) ->
  exists s', destroy i (cache_erase sm d (k, i) s) = Some s' /\ Inv None s' (L1 ++ L2) live /\
    mems s' = mems s /\ used s' = used s /\ known s' = known s /\ nmem s' = nmem s /\
    (forall e, held_bytes e (held s') = held_bytes e (held s) - (if Nat.eqb e d then m_bytes (mems s i) else 0)) /\
    (forall sm' e x, In x (caches s' sm' e) <-> In x (caches s sm' e) /\ ~ (sm' = sm /\ e = d /\ x = (k, i))) /\
    incl (held s') (held s).
Proof.
  intros I H. pose proof (proj1 (i_cache _ _ _ _ I sm d k i) H) as (A1 & A2 & _ & A4 & A5).
  destruct I as [I1 I2 I3 I4 I5 I6 I7 I8 I9 I10 I11 I12 I13].
  assert (OK : okchunk (mems s) (c, d, [i])). { rewrite Forall_forall in I1. apply I1. apply in_app_iff. right. left. auto. }
  destruct OK as (_ & _ & sm0 & CH & _). cbn [fst snd chain hd' tot] in CH. destruct CH as (C1 & C2 & C3 & _ & C5 & C6 & _).
  assert (NC : forall x, In x (L1 ++ L2) -> fst (fst x) <> c).
  { intros x Hx E. rewrite map_app in I3. cbn [map fst] in I3. apply NoDup_remove_2 in I3. apply I3. rewrite <- map_app. subst c.
    apply (in_map (fun k => fst (fst k)) _ _ Hx). }
  assert (NI : ~ In i (all (L1 ++ L2))).
  { rewrite all_app in I2. cbn [all flat_map snd app] in I2. apply NoDup_remove_2 in I2. rewrite all_app. auto. }
  assert (ALL : forall x, In x (all (L1 ++ (c, d, [i]) :: L2)) <-> x = i \/ In x (all (L1 ++ L2))).
  { intros x. rewrite !all_app. cbn [all flat_map snd app]. rewrite !in_app_iff. cbn. intuition. }
  unfold destroy. cbn [mems cache_erase set_caches]. rewrite C2, C5. cbn [Z.eqb held].
  assert (HE : filter (fun x => negb (Nat.eqb (fst (fst x)) c)) (held s) = map (fun k => (fst k, tot (mems s) (snd k))) (L1 ++ L2)).
  { rewrite I6, !map_app, filter_app. cbn [map filter fst snd]. rewrite Nat.eqb_refl. cbn [negb].
    rewrite !filter_other; auto; intros x Hx; apply NC; apply in_app_iff; auto. }
  eexists. split; [reflexivity|]. split; [|split; [reflexivity|split; [reflexivity|split; [reflexivity|split; [reflexivity|split; [|split]]]]]].
  - constructor; cbn [mems nmem nchunk held used known count set_held].
    + rewrite Forall_forall in *. intros x Hx. apply I1. rewrite in_app_iff in *. cbn. tauto.
    + rewrite all_app in *. cbn [all flat_map snd app] in I2. apply NoDup_remove_1 in I2. auto.
    + rewrite map_app in *. cbn [map fst] in I3. apply NoDup_remove_1 in I3. auto.
    + intros x Hx. apply I4. apply ALL. auto.
    + intros x Hx. apply I5. rewrite in_app_iff in *. cbn. tauto.
    + exact HE.
    + intros sm' e k' x. rewrite (in_cache_erase sm d (k, i) s sm' e (k', x)), I7. split.
      * intros ((B1 & B2 & B3 & B4 & B5) & N). split; [|repeat split; auto].
        destruct B1 as (c' & q & B & B'). rewrite in_app_iff in B. cbn in B. destruct B as [B|[B|B]].
        -- exists c', q. rewrite in_app_iff. auto.
        -- inversion B; subst c' e q. destruct B' as [<-|[]]. exfalso. apply N. repeat split; congruence.
        -- exists c', q. rewrite in_app_iff. auto.
      * intros (B1 & B2 & B3 & B4 & B5). pose proof (at_in _ _ _ B1) as B1'. split.
        -- destruct B1 as (c' & q & B & B'). split; [|repeat split; auto]. exists c', q. rewrite in_app_iff in *. cbn. tauto.
        -- intros (_ & _ & X). inversion X; subst x. contradiction.
    + apply nodup_cache_erase. auto.
    + intros x. rewrite I9, ALL. split; [|tauto]. intros ([->|B] & B'); [congruence|auto].
    + auto.
    + auto.
    + intros c' e n X. apply filter_In in X as (X & _). eauto.
    + auto.
  - intros e. cbn [held set_held cache_erase set_caches]. rewrite HE, I6. rewrite !map_app. cbn [map]. rewrite !held_bytes_app.
    unfold held_bytes at 4. cbn [map fold_right fst snd tot]. fold (held_bytes e (map (fun k => (fst k, tot (mems s) (snd k))) L2)).
    rewrite (Nat.eqb_sym d e). destruct (Nat.eqb e d); lia.
  - intros sm' e x. cbn [caches set_held]. apply (in_cache_erase sm d (k, i) s).
  - intros x Hx. cbn [held set_held cache_erase set_caches] in Hx. apply filter_In in Hx. tauto.
Qed.

Definition adding (ex : nat -> Z) (d : nat) (z : Z) : nat -> Z := fun e => ex e + (if Nat.eqb e d then z else 0).

Lemma active_single s lay live sm d k i : Inv None s lay live -> In (k, i) (caches s sm d) ->
  bytes_active (mems s i) <> 0 -> exists L1 L2 c, lay = L1 ++ (c, d, [i]) :: L2 /\ bytes_active (mems s i) = m_bytes (mems s i).
Proof.
  intros I H B. apply (i_cache _ _ _ _ I) in H as ((c & l & HL & Hi) & _).
  pose proof (i_chunks _ _ _ _ I) as F. rewrite Forall_forall in F. destruct (F _ HL) as (_ & _ & sm0 & C & _). cbn [fst snd] in C.
  destruct (chain_in _ _ _ _ _ _ _ _ _ C Hi) as (a & b & -> & _ & P & _ & _ & Pv & Nx & _).
  unfold bytes_active in *. rewrite P, Pv, Nx in *. destruct (hd' b None) eqn:E1; [congruence|]. destruct (last' a None) eqn:E2; [congruence|].
  assert (b = []) by (destruct b; [auto|discriminate]).
  assert (a = []). { destruct (last_in a None) as [X|(a' & z & -> & X)]; [|congruence].
    destruct a as [|z a]; auto. cbn in E2. destruct (last_some a z) as (y & Y). congruence. }
  subst a b. apply in_split in HL as (L1 & L2 & ->). exists L1, L2, c. auto.
Qed.

Lemma free_unused_ok sm d live : forall l acc s lay ex, Inv None s lay live -> Used s (adding ex d acc) -> NoDup l ->
  (forall e, In e l -> In e (caches s sm d)) ->
  exists r s' lay', free_unused_in sm d l acc s = Some (r, s') /\ Inv None s' lay' live /\ Used s' (adding ex d r) /\
    mems s' = mems s /\ known s' = known s /\ incl lay' lay /\ incl (held s') (held s) /\
    (forall sm' e x, In x (caches s' sm' e) -> In x (caches s sm' e)) /\
    (forall sm' e, sm' <> sm -> caches s' sm' e = caches s sm' e) /\
    (forall e, In e l -> In e (caches s' sm d) -> bytes_active (mems s' (snd e)) = 0).
Proof.
  induction l as [|[k i] l IH]; intros acc s lay ex I U N HC.
  - exists acc, s, lay. split; [reflexivity|]. split; [auto|]. split; [auto|]. split; [auto|]. split; [auto|]. split; [apply incl_refl|]. split; [apply incl_refl|].
    split; [auto|]. split; [auto|]. intros e [].
  - cbn [free_unused_in snd]. inversion N as [|? ? N1 N2]; subst. destruct (Z.eqb_spec (bytes_active (mems s i)) 0) as [B|B].
    + destruct (IH acc s lay ex I U N2) as (r & s' & lay' & R & J & V & M & K & IL & IH' & CM & CO & P). { intros e He. apply HC. right. auto. }
      exists r, s', lay'. split; [auto|]. repeat (split; [assumption|]). intros e [<-|He] H; auto. cbn [snd]. rewrite M. auto.
    + destruct (active_single s lay live sm d k i I (HC _ (or_introl eq_refl)) B) as (L1 & L2 & c & -> & BA).
      destruct (remove_ok s L1 L2 c d i live sm k I (HC _ (or_introl eq_refl))) as (s1 & D & J1 & M1 & U1 & K1 & _ & HB & C1 & IH1).
      rewrite D.
      assert (V1 : Used s1 (adding ex d (acc + bytes_active (mems s i)))).
      { intros e. rewrite U1, HB, (U e), BA. unfold adding. destruct (Nat.eqb e d); lia. }
      destruct (IH _ s1 (L1 ++ L2) ex J1 V1 N2) as (r & s' & lay' & R & J & V & M & K & IL & IH' & CM & CO & P).
      { intros e He. apply C1. split; [apply HC; right; auto|]. intros (_ & _ & ->). auto. }
      exists r, s', lay'. split; [auto|]. split; [auto|]. split; [auto|]. split; [congruence|]. split; [congruence|].
      split. { intros x Hx. apply IL in Hx. rewrite in_app_iff in *. cbn. tauto. }
      split. { intros x Hx. apply IH1. auto. }
      split. { intros sm' e x Hx. apply CM in Hx. apply C1 in Hx. tauto. }
      split. { intros sm' e Hs. rewrite CO by auto. unfold destroy in D. cbn [mems cache_erase set_caches] in D.
               destruct (m_ptr (mems s i)) as [[c0 o]|].
               - destruct (m_prev (mems s i)); [discriminate|]. destruct (Z.eqb o 0); [|discriminate]. inversion D. cbn [caches set_held cache_erase set_caches]. rewrite updb_at.
                 destruct (Bool.eqb sm' sm && Nat.eqb e d) eqn:Q; auto. apply sel_dec in Q. tauto.
               - inversion D. cbn [caches cache_erase set_caches]. rewrite updb_at.
                 destruct (Bool.eqb sm' sm && Nat.eqb e d) eqn:Q; auto. apply sel_dec in Q. tauto. }
      intros e [<-|He] Hin; auto. exfalso. apply CM, C1 in Hin as (_ & X). apply X. auto.
Qed.

(** After the release every chunk of the device has a live block. *)
Definition serves (s : ast) (k : chunk) : Prop := exists i, In i (snd k) /\ m_locked (mems s i) = true.

Lemma free_device_ok s lay live ex d : Inv None s lay live -> Used s ex ->
  exists s' lay', free_device d s = Some s' /\ Inv None s' lay' live /\ Used s' ex /\ mems s' = mems s /\
    incl lay' lay /\ incl (known s) (known s') /\ incl (held s') (held s) /\
    (forall c l, In (c, d, l) lay' -> serves s' (c, d, l)).
Proof.
  intros I U. unfold free_device.
  assert (U0 : Used s (adding ex d 0)). { intros e. rewrite (U e). unfold adding. destruct (Nat.eqb e d); lia. }
  destruct (free_unused_ok true d live (caches s true d) 0 s lay ex I U0 (i_cnodup _ _ _ _ I _ _) (fun e H => H))
    as (r1 & s1 & lay1 & R1 & I1 & U1 & M1 & K1 & IL1 & IH1 & CM1 & CO1 & P1). rewrite R1.
  assert (U1' : Used s1 (adding (adding ex d r1) d 0)). { intros e. rewrite (U1 e). unfold adding. destruct (Nat.eqb e d); lia. }
  destruct (free_unused_ok false d live (caches s1 false d) 0 s1 lay1 _ I1 U1' (i_cnodup _ _ _ _ I1 _ _) (fun e H => H))
    as (r2 & s2 & lay2 & R2 & I2 & U2 & M2 & K2 & IL2 & IH2 & CM2 & CO2 & P2). rewrite R2.
  set (s3 := set_used d (used s2 d - (r1 + r2)) s2).
  assert (Sv : forall c l, In (c, d, l) lay2 -> serves s2 (c, d, l)).
  { intros c l HL. pose proof (i_chunks _ _ _ _ I2) as F. rewrite Forall_forall in F. destruct (F _ HL) as (NE & AD & sm & CH & _). cbn [fst snd] in *.
    unfold serves. cbn [snd]. destruct l as [|i l]; [congruence|].
    destruct (m_locked (mems s2 i)) eqn:Li; [exists i; split; [left|]; auto|].
    destruct l as [|j l]; [|exists j; split; [right; left; auto|]; cbn [adjl] in AD; destruct (proj1 AD j eq_refl); congruence].
    exfalso. cbn [chain hd'] in CH. destruct CH as (C1 & C2 & C3 & C4 & C5 & C6 & _).
    assert (Ca : In (m_bytes (mems s2 i), i) (caches s2 sm d)).
    { apply (i_cache _ _ _ _ I2). split; [exists c, [i]; split; [auto|left; auto]|]. repeat split; auto. discriminate. }
    assert (BA : bytes_active (mems s2 i) = m_bytes (mems s2 i)). { unfold bytes_active. rewrite C2, C5, C6. auto. }
    destruct sm.
    - pose proof (CM2 _ _ _ Ca) as Ca1. pose proof (P1 _ (CM1 _ _ _ Ca1) Ca1) as X. cbn [snd] in X. rewrite <- M2, BA in X. lia.
    - pose proof (P2 _ (CM2 _ _ _ Ca) Ca) as X. cbn [snd] in X. rewrite BA in X. lia. }
  exists s3, lay2. split; [reflexivity|].
  split. { destruct I2 as [J1 J2 J3 J4 J5 J6 J7 J8 J9 J10 J11 J12 J13]. constructor; auto.
           intros c e n H. apply known_set. left. eauto. }
  split. { intros e. unfold s3. cbn [used set_used held]. unfold upd. destruct (Nat.eqb_spec e d) as [->|Ne].
           - rewrite (U2 d). unfold adding. rewrite Nat.eqb_refl. lia.
           - rewrite (U2 e). unfold adding. rewrite (proj2 (Nat.eqb_neq e d)) by auto. lia. }
  split. { change (mems s3) with (mems s2). congruence. }
  split. { intros x Hx. auto. }
  split. { intros x Hx. apply known_set. left. rewrite K2, K1. auto. }
  split. { intros x Hx. auto. }
  intros c l HL. apply Sv in HL. exact HL.
Qed.

Lemma free_devices_ok live ex : forall ds s lay, Inv None s lay live -> Used s ex ->
  exists s' lay', free_devices ds s = Some s' /\ Inv None s' lay' live /\ Used s' ex /\ mems s' = mems s /\ incl lay' lay /\
    incl (held s') (held s) /\ (forall c d l, In d ds -> In (c, d, l) lay' -> serves s' (c, d, l)).
Proof.
  induction ds as [|d ds IH]; intros s lay I U; cbn [free_devices].
  - exists s, lay. split; [auto|]. split; [auto|]. split; [auto|]. split; [auto|]. split; [apply incl_refl|]. split; [apply incl_refl|]. intros c d l [].
  - destruct (free_device_ok s lay live ex d I U) as (s1 & lay1 & -> & I1 & U1 & M1 & L1 & K1 & H1 & S1).
    destruct (IH s1 lay1 I1 U1) as (s' & lay' & -> & I' & U' & M' & L' & H' & S').
    exists s', lay'. split; [auto|]. split; [auto|]. split; [auto|]. split; [congruence|]. split; [eapply incl_tran; eauto|]. split; [eapply incl_tran; eauto|].
    intros c e l [<-|He] HL; [|eapply S'; eauto]. destruct (S1 c l (L' _ HL)) as (i & Hi & Li). exists i. split; auto. rewrite M'. auto.
Qed.

Definition WInv (w : world) : Prop := exists lay, Inv None (fst w) lay (snd w) /\ Used (fst w) (fun _ => 0).

Lemma start_inv : WInv (start, []).
Proof.
  exists []. split.
  - constructor; cbn [fst snd].
    + constructor.
    + constructor.
    + constructor.
    + intros i [].
    + intros k [].
    + reflexivity.
    + intros sm d k i. cbn. split; [intros []|]. intros ((c & l & [] & _) & _).
    + intros sm d. cbn. constructor.
    + intros i. cbn. tauto.
    + constructor.
    + intros i b d [].
    + intros c d n [].
    + intros sm d. reflexivity.
  - intros d. reflexivity.
Qed.

Section Run.
Variable addr : nat -> nat.

Lemma alloc_ok orig d ok1 ok2 s lay live ex : Inv None s lay live -> Used s ex ->
  exists s' o lay', alloc addr orig d ok1 ok2 s = Some (s', o) /\ Used s' ex /\
    (forall x, In x (lids live) -> same_place s s' x) /\
    match o with
    | Some i => Inv None s' lay' ((i, orig, d) :: live)
    | None => Inv None s' lay' live /\ ok1 = false /\ ok2 = false
    end.
Proof using.
  intros I U. unfold alloc. destruct (round_size_ge (Z.max orig 1) ltac:(lia)) as (RG & RP).
  set (b := round_size (Z.max orig 1)) in *. clearbody b. assert (Ob : orig <= b) by lia.
  destruct (lower_bound addr b (caches s (b <=? small_alloc) d)) as [[k i]|] eqn:LB.
  - apply lower_bound_in in LB as (Hin & Hk). cbn [fst snd] in *.
    pose proof (proj1 (i_cache _ _ _ _ I _ _ _ _) Hin) as (A1 & A2 & _ & A4 & A5).
    pose proof (take_ok _ _ _ _ _ _ _ I Hin) as I1. set (s1 := cache_erase (b <=? small_alloc) d (k, i) s) in *.
    assert (M1 : mems s1 = mems s) by reflexivity.
    destruct (finish_ok (b <=? small_alloc) b d i s1 lay live ex orig I1) as (s' & lay' & F & I' & U' & P & _); auto.
    + rewrite M1. lia.
    + rewrite M1, <- A4. auto.
    + exists s', (Some i), lay'. rewrite F. split; [auto|]. split; [auto|]. split; auto.
  - assert (Bc : 0 < (if b <=? small_alloc then small_alloc else b) /\ b <= (if b <=? small_alloc then small_alloc else b) /\
       ((if b <=? small_alloc then small_alloc else b) <=? small_alloc) = (b <=? small_alloc)).
    { destruct (Z.leb_spec b small_alloc) as [X|X]; unfold small_alloc in *; (split; [lia|split; [lia|]]); [reflexivity|apply Z.leb_gt; lia]. }
    destruct Bc as (Bc1 & Bc2 & Bc3). set (bc := if b <=? small_alloc then small_alloc else b) in *. clearbody bc.
    assert (New : forall s0 lay0, Inv None s0 lay0 live -> Used s0 ex -> mems s0 = mems s -> 
       exists s' i lay', (let (s1, i) := new_chunk bc d s0 in Some (s1, Some i)) = Some (s', Some i) /\
         Inv (Some i) s' lay' live /\ Used s' ex /\ at_lay lay' d i /\ m_locked (mems s' i) = false /\ m_bytes (mems s' i) = bc /\
         (forall x, In x (lids live) -> same_place s s' x)).
    { intros s0 lay0 I0 U0 M0. destruct (new_chunk bc d s0) as [s1 i] eqn:E.
      destruct (new_chunk_ok s0 lay0 live bc d ex I0 U0 Bc1 s1 i E) as (I1 & U1 & L1 & B1).
      exists s1, i, ((nchunk s0, d, [i]) :: lay0). split; [auto|]. split; [auto|]. split; [auto|].
      split. { exists (nchunk s0), [i]. split; left; auto. } split; [auto|]. split; [auto|].
      intros x Hx. assert (Hn : (x < nmem s0)%nat). { apply (i_fresh _ _ _ _ I0). apply (i_lock _ _ _ _ I0) in Hx. tauto. }
      unfold new_chunk in E. injection E as E1 E2. rewrite <- E1. unfold same_place. cbn [mems set_used]. unfold upd.
      destruct (Nat.eqb_spec x (nmem s0)) as [->|]; [lia|]. rewrite M0. auto. }
    assert (Fin : forall s1 i lay1, Inv (Some i) s1 lay1 live -> Used s1 ex -> at_lay lay1 d i -> m_locked (mems s1 i) = false ->
       m_bytes (mems s1 i) = bc -> (forall x, In x (lids live) -> same_place s s1 x) ->
       exists s' lay', finish (b <=? small_alloc) b d i s1 = Some s' /\ Used s' ex /\ (forall x, In x (lids live) -> same_place s s' x) /\
         Inv None s' lay' ((i, orig, d) :: live)).
    { intros s1 i lay1 I1 U1 A1 L1 B1 P1.
      destruct (finish_ok (b <=? small_alloc) b d i s1 lay1 live ex orig I1 U1 A1 L1 RP) as (s' & lay' & F & I' & U' & P & _); auto.
      - rewrite B1. lia.
      - rewrite B1. auto.
      - exists s', lay'. split; [auto|]. split; [auto|]. split; [|auto]. intros x Hx. eapply same_trans; eauto. }
    unfold alloc_retry. destruct ok1.
    + destruct (New s lay I U eq_refl) as (s1 & i & lay1 & -> & I1 & U1 & A1 & L1 & B1 & P1).
      destruct (Fin s1 i lay1 I1 U1 A1 L1 B1 P1) as (s' & lay' & -> & U' & P' & I').
      exists s', (Some i), lay'. auto.
    + destruct (free_device_ok s lay live ex d I U) as (s0 & lay0 & -> & I0 & U0 & M0 & _).
      destruct ok2.
      * destruct (New s0 lay0 I0 U0 M0) as (s1 & i & lay1 & -> & I1 & U1 & A1 & L1 & B1 & P1).
        destruct (Fin s1 i lay1 I1 U1 A1 L1 B1 P1) as (s' & lay' & -> & U' & P' & I').
        exists s', (Some i), lay'. auto.
      * exists s0, None, lay0. split; [auto|]. split; [auto|]. split; [|auto]. intros x Hx. unfold same_place. rewrite M0. auto.
Qed.

Lemma step_ok w o : WInv w -> exists w', step addr w o = Some w' /\ WInv w' /\
  (forall x, In x (lids (snd w)) -> In x (lids (snd w')) -> same_place (fst w) (fst w') x).
Proof using.
  destruct w as [s live]. intros (lay & I & U). cbn [fst snd] in *. destruct o as [b d ok1 ok2|k|d|]; cbn [step].
  - destruct (alloc_ok b d ok1 ok2 s lay live _ I U) as (s' & [i|] & lay' & -> & U' & P & J); eexists; (split; [reflexivity|]); (split; [|cbn; auto]).
    + exists lay'. auto.
    + exists lay'. cbn. tauto.
  - destruct (nth_error live k) as [[[i b] d]|] eqn:E.
    + destruct (free_ok s lay live _ k i b d I U E) as (lay' & I' & U' & P & _).
      eexists. split; [reflexivity|]. split; [exists lay'; auto|]. cbn. auto.
    + eexists. split; [reflexivity|]. split; [exists lay; auto|]. cbn. intros. apply same_refl.
  - destruct (free_device_ok s lay live _ d I U) as (s' & lay' & -> & I' & U' & M & _).
    eexists. split; [reflexivity|]. split; [exists lay'; auto|]. cbn. intros x _ _. unfold same_place. rewrite M. auto.
  - destruct (free_devices_ok live _ (known s) s lay I U) as (s' & lay' & -> & I' & U' & M & _).
    eexists. split; [reflexivity|]. split; [exists lay'; auto|]. cbn. intros x _ _. unfold same_place. rewrite M. auto.
Qed.

Lemma run_ok : forall ops w, WInv w -> exists w', run addr ops w = Some w' /\ WInv w'.
Proof using.
  induction ops as [|o ops IH]; intros w W; cbn [run]; [eauto|].
  destruct (step_ok w o W) as (w' & -> & W' & _). auto.
Qed.
End Run.

(** What the invariant says about live blocks. *)
Lemma inv_usable s lay live i b d : Inv None s lay live -> In (i, b, d) live -> usable s i b d.
Proof.
  intros I H. destruct (i_live _ _ _ _ I _ _ _ H) as (B & D).
  pose proof (proj1 (i_lock _ _ _ _ I i) (lids_in _ _ _ _ H)) as (Hall & Lk).
  apply in_all in Hall as (c & e & l & HL & Hi).
  pose proof (i_chunks _ _ _ _ I) as F. rewrite Forall_forall in F. destruct (F _ HL) as (_ & _ & sm & CH & _). cbn [fst snd] in CH.
  destruct (chain_in _ _ _ _ _ _ _ _ _ CH Hi) as (a & q & -> & De & P & Bp & _ & _ & _ & C1 & C2).
  exists c, (tot (mems s) a), (m_bytes (mems s i)), (tot (mems s) (a ++ i :: q)).
  assert (Ed : e = d) by congruence. rewrite Ed in *. clear De Ed.
  split. { split; [exact P|reflexivity]. }
  split. { rewrite (i_held _ _ _ _ I). apply in_map_iff. exists (c, d, a ++ i :: q). split; [reflexivity|exact HL]. }
  apply tot_nonneg in C1. apply tot_nonneg in C2. rewrite tot_app. cbn [tot]. repeat split; auto; lia.
Qed.
Lemma inv_disjoint s lay live i j : Inv None s lay live -> In i (lids live) -> In j (lids live) -> i <> j -> disjoint s i j.
Proof.
  intros I Hi Hj N c o n c' o' n' (P1 & B1) (P2 & B2).
  apply (i_lock _ _ _ _ I) in Hi as (Hi & _). apply (i_lock _ _ _ _ I) in Hj as (Hj & _).
  apply in_all in Hi as (c1 & d1 & l1 & HL1 & Hi). apply in_all in Hj as (c2 & d2 & l2 & HL2 & Hj).
  pose proof (i_chunks _ _ _ _ I) as F. rewrite Forall_forall in F.
  destruct (F _ HL1) as (_ & _ & sm1 & CH1 & _). destruct (F _ HL2) as (_ & _ & sm2 & CH2 & _). cbn [fst snd] in *.
  destruct (chain_in _ _ _ _ _ _ _ _ _ CH1 Hi) as (a1 & q1 & E1 & _ & Q1 & _).
  destruct (chain_in _ _ _ _ _ _ _ _ _ CH2 Hj) as (a2 & q2 & E2 & _ & Q2 & _).
  rewrite P1 in Q1. inversion Q1; subst c1 o. rewrite P2 in Q2. inversion Q2; subst c2 o'.
  destruct (Nat.eq_dec c c') as [<-|]; [right|left; auto].
  assert (E : (c, d1, l1) = (c, d2, l2)).
  { pose proof (i_cn _ _ _ _ I) as NC. clear - NC HL1 HL2. revert NC HL1 HL2. induction lay as [|k L IH]; cbn [map]; intros NC H1 H2; [destruct H1|].
    inversion NC; subst. destruct H1 as [->|H1], H2 as [H2|H2]; auto.
    - exfalso. apply H3. cbn. apply (in_map (fun k => fst (fst k)) _ _ H2).
    - exfalso. apply H3. subst k. cbn. apply (in_map (fun k => fst (fst k)) _ _ H1). }
  injection E as -> El. rewrite El in E1. clear l1 HL1 CH1 Hi El. rename CH2 into CH1. pose proof CH1 as CH2.
  (* both in one chain *)
  assert (X : (exists r, a2 = a1 ++ i :: r) \/ (exists r, a1 = a2 ++ j :: r)).
  { rewrite E2 in E1. clear - E1 N. revert a2 E1. induction a1 as [|x a1 IH]; intros [|y a2] E1; cbn in E1.
    - congruence.
    - left. exists a2. cbn. congruence.
    - right. exists a1. cbn. congruence.
    - injection E1 as -> E1. destruct (IH a2 E1) as [(r & ->)|(r & ->)]; [left|right]; exists r; auto. }
  destruct X as [(r & ->)|(r & ->)].
  - left. rewrite tot_app. cbn [tot]. rewrite E2 in CH1, CH2. rewrite <- app_assoc in CH2. cbn [app] in CH2.
    apply chain_app in CH2 as (_ & CH2). cbn [chain] in CH2. destruct CH2 as (_ & _ & _ & _ & _ & _ & CH2). apply chain_app in CH2 as (CH2 & _).
    apply tot_nonneg in CH2. lia.
  - right. rewrite tot_app. cbn [tot]. rewrite E1 in CH1. rewrite <- app_assoc in CH1. cbn [app] in CH1.
    apply chain_app in CH1 as (_ & CH1). cbn [chain] in CH1. destruct CH1 as (_ & _ & _ & _ & _ & _ & CH1). apply chain_app in CH1 as (CH1 & _).
    apply tot_nonneg in CH1. lia.
Qed.
