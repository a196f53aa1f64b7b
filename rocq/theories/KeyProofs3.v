(** Writing with a key. *)
From Coq Require Import List ZArith Bool Lia QArith Qcanon.
From Verif Require SliceModel SliceProofs SliceProps.
From Verif Require Import NdModel NdSpec NdProofs SliceSpec IdxModel IdxSpec IdxProofs1 IdxProofs2 JoinProofs ScanModel ScanSpec ScanProofs1 ConvModel ConvSpec MatModel MatProofs2 MatProps MaskSpec MaskProofs1 ScatModel ScatSpec ScatProofs1 ScatProps KeyModel KeySpec KeyProofs1 KeyProofs2.
Import ListNotations.
Local Open Scope list_scope.
Local Open Scope Z_scope.

(** * NumPy's lists of indices *)
Lemma adjust_clamp n k v : 0 <= n -> k <> 0 -> adjust n k v = clamp n k v.
Proof.
  intros N K. unfold adjust, clamp. destruct (Z.ltb_spec v 0).
  - destruct (Z.ltb_spec (v + n) 0); destruct (Z.ltb_spec k 0); destruct (Z.ltb_spec 0 k); lia.
  - destruct (Z.leb_spec n v); destruct (Z.ltb_spec k 0); destruct (Z.ltb_spec 0 k); lia.
Qed.
Lemma count_nth s k len m x : 0 <= len -> nth_error (map (fun i => s + i * k) (upto len)) m = Some x <-> x = s + Z.of_nat m * k /\ Z.of_nat m < len.
Proof.
  intros L. change (upto len) with (SliceModel.upto len). rewrite nth_error_map, SliceProofs.upto_nth. destruct (Z.ltb_spec (Z.of_nat m) len); cbn [option_map]; split.
  - intros E. injection E as <-. auto.
  - intros [-> _]. reflexivity.
  - discriminate.
  - intros [_ ?]. lia.
Qed.
Lemma np_slice_ok n a l : 0 <= n -> python_slice n a l -> np_slice n a = Some l.
Proof.
  intros N P. assert (E : exists l', np_slice n a = Some l' /\ python_slice n a l'); [| destruct E as (l' & E & P'); rewrite E; f_equal; eapply SliceProofs.python_unique; eassumption].
  destruct a as [[s e] k]. destruct P as (K & _). unfold np_slice, python_slice. set (k' := match k with Some k => k | None => 1 end) in *.
  destruct (Z.eqb_spec k' 0); [contradiction |]. eexists. split; [reflexivity |]. split; [exact K |].
  assert (FE : (match s with Some v => adjust n k' v | None => if k' <? 0 then n - 1 else 0 end) = first n s k').
  { unfold first. destruct s; [apply adjust_clamp; assumption |]. destruct (Z.ltb_spec k' 0); destruct (Z.ltb_spec 0 k'); lia. }
  assert (LE : (match e with Some v => adjust n k' v | None => if k' <? 0 then -1 else n end) = last n e k').
  { unfold last. destruct e; [apply adjust_clamp; assumption |]. destruct (Z.ltb_spec k' 0); destruct (Z.ltb_spec 0 k'); lia. }
  rewrite FE, LE. clear FE LE. set (f := first n s k'). set (g := last n e k'). clearbody f g k'. clear - K. intros m x.
  destruct (Z.ltb_spec k' 0) as [KN | KP].
  - destruct (Z.ltb_spec 0 k'); [lia |]. destruct (Z.ltb_spec g f).
    + assert (D := Z.div_mod (f - g - 1) (- k') ltac:(lia)). assert (B := Z.mod_pos_bound (f - g - 1) (- k') ltac:(lia)). assert (Q := Z.div_pos (f - g - 1) (- k') ltac:(lia) ltac:(lia)).
      set (q := (f - g - 1) / (- k')) in *. set (r := (f - g - 1) mod (- k')) in *. clearbody q r. rewrite count_nth by lia. split; intros (-> & H1); (split; [reflexivity |]); nia.
    + rewrite count_nth by lia. split; intros (-> & H1); [lia |]. exfalso. nia.
  - destruct (Z.ltb_spec 0 k'); [| lia]. destruct (Z.ltb_spec f g).
    + assert (D := Z.div_mod (g - f - 1) k' ltac:(lia)). assert (B := Z.mod_pos_bound (g - f - 1) k' ltac:(lia)). assert (Q := Z.div_pos (g - f - 1) k' ltac:(lia) ltac:(lia)).
      set (q := (g - f - 1) / k') in *. set (r := (g - f - 1) mod k') in *. clearbody q r. rewrite count_nth by lia. split; intros (-> & H1); (split; [reflexivity |]); nia.
    + rewrite count_nth by lia. split; intros (-> & H1); [lia |]. exfalso. nia.
Qed.
Lemma np_slices_ok shape : forall args sels, Forall (fun n => 0 <= n < 2147483647) shape -> length args = length shape -> good_lists shape args sels -> np_slices shape args = Some sels.
Proof.
  induction shape as [| n shape IH]; intros [| a args] sels HS L G; try discriminate; unfold good_lists in G; cbn [combine] in G; inversion G as [| ? l ? sels' P G']; subst; [reflexivity |].
  inversion HS as [| ? ? Hn HS']; subst. cbn [np_slices]. cbn [fst snd] in P. rewrite (np_slice_ok n a l) by (lia || exact P). cbn [obind]. rewrite (IH args sels' HS' ltac:(injection L; auto) G'). reflexivity.
Qed.
(** * The array of indices *)
Lemma all_indices_eq shape : all_indices shape = indices shape.
Proof.
  induction shape as [| n shape IH]; [reflexivity |]. cbn [all_indices indices]. rewrite IH. change (upto n) with (SliceModel.upto n). rewrite SliceProofs.upto_range. reflexivity.
Qed.
Lemma nth_blocks {A} (d : A) (n : nat) : forall (ls : list (list A)) m j, Forall (fun l => length l = n) ls -> (m < length ls)%nat -> (j < n)%nat -> nth (m * n + j) (concat ls) d = nth j (nth m ls []) d.
Proof.
  induction ls as [| l ls IH]; intros m j F M J; [cbn in M; lia |]. inversion F as [| ? ? L F']; subst. cbn [concat]. destruct m as [| m].
  - rewrite app_nth1 by lia. reflexivity.
  - rewrite app_nth2 by lia. cbn [nth length] in *. replace (S m * length l + j - length l)%nat with (m * length l + j)%nat by lia. apply IH; [exact F' | lia | exact J].
Qed.
Lemma concat_length {A} (n : nat) (ls : list (list A)) : Forall (fun l => length l = n) ls -> length (concat ls) = (length ls * n)%nat.
Proof. induction 1 as [| l ls L F IH]; [reflexivity |]. cbn [concat length]. rewrite app_length, IH, L. reflexivity. Qed.
Section Rows.
Variables (rest : list Z) (k : nat) (f : nat -> list Z -> Z).
Hypothesis HR : Forall (fun n => 0 <= n) rest.
Local Notation rows := (concat (map (fun m => map (f m) (indices rest)) (seq 0 k))).
Lemma rows_blocks : Forall (fun l => length l = Z.to_nat (size rest)) (map (fun m => map (f m) (indices rest)) (seq 0 k)).
Proof using HR. apply Forall_forall. intros l I. apply in_map_iff in I. destruct I as (m & <- & _). rewrite map_length. pose proof (indices_length rest HR). lia. Qed.
Lemma rows_length : Z.of_nat (length rows) = size (Z.of_nat k :: rest).
Proof using HR. rewrite (concat_length _ _ rows_blocks), map_length, seq_length. cbn [size]. pose proof (size_nonneg rest HR). lia. Qed.
Lemma rows_elem m c : (m < k)%nat -> inside c rest -> elem rows (Z.of_nat k :: rest) (Z.of_nat m :: c) = f m c.
Proof using HR.
  intros M I. rewrite elem_at by (constructor; [lia | exact I]). cbn [off]. unfold at_. pose proof (off_bound c rest I) as B. replace (Z.to_nat (Z.of_nat m * size rest + off c rest)) with (m * Z.to_nat (size rest) + Z.to_nat (off c rest))%nat by nia.
  rewrite (nth_blocks 0 (Z.to_nat (size rest))).
  - rewrite (nth_indep _ [] (map (f O) (indices rest))) by (rewrite map_length, seq_length; exact M). rewrite (map_nth (fun m => map (f m) (indices rest)) (seq 0 k) O m), seq_nth by exact M. cbn [Nat.add].
    pose proof (nth_indices (f m) rest c 0 HR I) as H. rewrite position_off in H by exact I. rewrite Z.mul_0_l, Z.add_0_l in H. exact H.
  - exact rows_blocks.
  - rewrite map_length, seq_length. exact M.
  - lia.
Qed.
End Rows.
Lemma picks_nth sels c s : picks sels c s -> forall m, (m < length sels)%nat -> nth (Z.to_nat (nth m c 0)) (nth m sels []) 0 = nth m s 0.
Proof.
  induction 1 as [| l ls i is x xs I X P IH]; intros m M; [cbn in M; lia |]. destruct m as [| m]; cbn [nth length] in *; [apply nth_error_nth; exact X | apply IH; lia].
Qed.
Lemma picks_len sels c s : picks sels c s -> length c = length sels /\ length s = length sels.
Proof. induction 1 as [| l ls i is x xs I X P IH]; [split; reflexivity |]. cbn [length]. lia. Qed.
Lemma picks_total sels : forall c, inside c (SliceProps.extents sels) -> exists s, picks sels c s.
Proof.
  induction sels as [| l sels IH]; intros c I; inversion I as [| i ? r ? Hi Hr]; subst; [exists []; constructor |]. destruct (IH r Hr) as (s & P).
  destruct (nth_error l (Z.to_nat i)) as [x |] eqn:X; [| apply nth_error_None in X; lia]. exists (x :: s). constructor; [lia | exact X | exact P].
Qed.
Lemma picks_in shape : forall args sels c s, Forall (fun n => 0 <= n < 2147483647) shape -> length args = length shape -> good_lists shape args sels -> picks sels c s -> inside s shape.
Proof.
  induction shape as [| n shape IH]; intros [| a args] sels c s HS L G P; try discriminate; unfold good_lists in G; cbn [combine] in G; inversion G as [| ? l ? sels' Pl G']; subst; inversion P as [| ? ? i is x xs Hi X P']; subst; [constructor |].
  inversion HS as [| ? ? Hn HS']; subst. constructor; [| eapply (IH args); eauto]. eapply (SliceProofs.python_inside n a l); [lia | exact Pl | eapply nth_error_In; exact X].
Qed.
Lemma picks_inj shape : forall args sels c d s, length args = length shape -> good_lists shape args sels -> picks sels c s -> picks sels d s -> c = d.
Proof.
  induction shape as [| n shape IH]; intros [| a args] sels c d s L G P Q; try discriminate; unfold good_lists in G; cbn [combine] in G; inversion G as [| ? l ? sels' Pl G']; subst; inversion P as [| ? ? i is x xs Hi X P']; subst; inversion Q as [| ? ? j js y ys Hj Y Q']; subst; [reflexivity |].
  f_equal; [| eapply (IH args); eauto]. destruct a as [[a1 a2] a3]. destruct Pl as (K & Pl). cbn [fst snd] in *. destruct (proj1 (Pl _ _) X) as (E1 & _). destruct (proj1 (Pl _ _) Y) as (E2 & _).
  rewrite !Z2Nat.id in * by lia. assert (E : Z.mul i (match a3 with Some k => k | None => 1 end) = Z.mul j (match a3 with Some k => k | None => 1 end)) by lia. apply Z.mul_cancel_r in E; assumption.
Qed.
Lemma grid_place shape args sels c s : Forall (fun n => 0 <= n < 2147483647) shape -> length args = length shape -> length sels = length shape -> good_lists shape args sels -> picks sels c s ->
  (forall m, (m < length shape)%nat -> elem (grid sels) (Z.of_nat (length shape) :: SliceProps.extents sels) (Z.of_nat m :: c) = nth m s 0) /\ place (grid sels) (SliceProps.extents sels) shape c = s.
Proof.
  intros HS LA LS G P. pose proof (SliceProps.picks_inside _ _ _ P) as IC.
  assert (E : forall m, (m < length shape)%nat -> elem (grid sels) (Z.of_nat (length shape) :: SliceProps.extents sels) (Z.of_nat m :: c) = nth m s 0).
  { intros m M. unfold grid. change (lengths sels) with (SliceProps.extents sels). rewrite all_indices_eq, <- LS. rewrite (rows_elem (SliceProps.extents sels) (length sels) (fun m c => nth (Z.to_nat (nth m c 0)) (nth m sels []) 0)).
    - apply (picks_nth _ _ _ P). lia.
    - apply lists_nonneg.
    - lia.
    - exact IC. }
  split; [exact E |]. pose proof (picks_in shape args sels c s HS LA G P) as IS. destruct (picks_len _ _ _ P) as (_ & L2). unfold place.
  assert (MS : map (fun m => nth m s 0) (seq 0 (length s)) = s). { clear. induction s as [| a s IH]; [reflexivity |]. cbn [length seq map nth]. f_equal. rewrite <- seq_shift, map_map. exact IH. }
  etransitivity; [| exact MS]. rewrite L2, LS. apply map_ext_in. intros m M. apply in_seq in M. rewrite E by lia. destruct (proj1 (inside_nth shape s) IS) as (_ & B). specialize (B m ltac:(lia)). unfold signed. destruct (Z.ltb_spec (nth m s 0) 0); [lia | reflexivity].
Qed.
(** * Broadcasting of the value *)
Lemma spread_ok junk V O v : Forall (fun n => 0 <= n) O -> repeatable V O -> (V = O \/ (length O <= 8)%nat) -> has_size v (size V) ->
  exists w, spread junk V O v = Some w /\ has_size w (size O) /\ forall o, inside o O -> qelem w O o = qelem v V (under V (length O) o).
Proof.
  intros HO R H8 LV. unfold spread. destruct (same_shape V O) eqn:SS.
  - apply same_shape_eq in SS. subst V. exists v. split; [reflexivity |]. split; [exact LV |]. intros o I. unfold under. rewrite Nat.sub_diag. cbn [skipn]. rewrite picked_same by exact I. reflexivity.
  - assert (L8 : (length O <= 8)%nat). { destruct H8 as [-> |]; [rewrite same_shape_refl in SS; discriminate | assumption]. }
    destruct (fill_mask junk V O v HO R L8 LV) as (w & E & L & W). exists w. split; [| split; [exact L |]].
    + rewrite <- E. unfold bc_data. destruct R as (LE & _). f_equal. unfold bc_pairs. assert (LES : length (repeat 1 (length O - length V) ++ V) = length O) by (rewrite app_length, repeat_length; lia). rewrite LES.
      assert (Z1 : Nat.leb (length V) (length O) = true) by (apply Nat.leb_le; exact LE). rewrite Z1, Nat.leb_refl. unfold expand_shape. rewrite LES, Nat.sub_diag. reflexivity.
    + intros o I. rewrite (qelem_off w) by exact I. rewrite (qelem_off v); [apply W; exact I |]. destruct R as (LE & F). unfold under. eapply picked_inside; [exact F |]. apply inside_skip. exact I.
Qed.
Lemma setitem_ok junk keys full shape O V v x : shape <> [] -> Forall (fun n => 0 <= n < 2147483647) shape -> expands (length shape) keys full -> completed (length shape) keys -> gives full shape O ->
  Forall2 ordinary_key shape (axis_keys full) -> repeatable V O -> (V = O \/ (length O <= 8)%nat) -> has_size v (size V) -> has_size x (size shape) ->
  exists y, setitem junk keys shape V v x = Some y /\ has_size y (size shape) /\
    (forall o s, takes full shape o s -> qelem y shape s = qelem v V (under V (length O) o)) /\
    (forall s, inside s shape -> (forall o, ~ takes full shape o s) -> qelem y shape s = qelem x shape s).
Proof.
  intros NE HS X C G OR RV H8 LV LX. destruct (gives_args full shape O G HS OR) as (args & sels & E1 & E2 & E3 & E4 & E5 & E6 & E7 & E8 & E9 & E10 & E11).
  destruct (sliced_ok junk shape args sels x NE HS E2 E3 E4 LX) as (axes & y0 & S1 & S2 & S3 & _). destruct (spread_ok junk V O v E8 RV H8 LV) as (w & W1 & W2 & W3).
  set (ext := SliceProps.extents sels) in *. assert (HE : Forall (fun n => 0 <= n) ext) by apply lists_nonneg. assert (NX : ext <> []) by (unfold ext, SliceProps.extents; destruct sels; [destruct shape; [contradiction | discriminate] | discriminate]).
  assert (HA : sizes shape) by (eapply Forall_impl; [| exact HS]; cbv beta; lia).
  assert (LG : Z.of_nat (length (grid sels)) = size (Z.of_nat (length shape) :: ext)). { unfold grid. change (lengths sels) with ext. rewrite all_indices_eq, <- E5. apply rows_length. exact HE. }
  assert (PV : places_valid (grid sels) ext shape).
  { intros c m IC M. destruct (picks_total sels c IC) as (s & P). destruct (grid_place shape args sels c s HS E2 E5 E4 P) as (EL & _). fold ext in EL. rewrite EL by exact M.
    destruct (proj1 (inside_nth shape s) (picks_in shape args sels c s HS E2 E4 P)) as (_ & B). specialize (B m M). lia. }
  destruct (C63_copy_values true shape [] ext (grid sels) w x NE NX HA ltac:(constructor) HE LG PV) as (y & F1 & F2 & F3 & F4).
  - rewrite app_nil_r. rewrite <- E7. exact W2.
  - rewrite app_nil_r. exact LX.
  - rewrite app_nil_r in F1, F2. exists y. split; [| split; [exact F2 | split]].
    + unfold setitem. rewrite (prepared keys full shape args NE E2 E1 X C). cbn [obind]. rewrite S1. cbn [obind]. rewrite S3. cbn [obind]. rewrite S2, E6. cbn [obind]. rewrite W1. cbn [obind].
      rewrite (np_slices_ok shape args sels HS E2 E4). cbn [obind]. change (lengths sels) with ext.
      assert (RS : (if same_shape O ext then Some ext else reshape O ext) = Some ext) by (destruct (same_shape O ext); [reflexivity |]; unfold reshape; rewrite !prod_size, E7, Z.eqb_refl; reflexivity).
      rewrite RS. cbn [obind]. pose proof (C63_setup shape [] ext NX) as ST. rewrite !app_nil_r in ST. rewrite ST. cbn [obind]. exact F1.
    + intros o s T. destruct (E10 o s T) as (c & I & P & IS & IC & EO). specialize (F3 s c [] IS ltac:(constructor)). rewrite !app_nil_r in F3. rewrite F3.
      * rewrite <- (W3 o I). rewrite (qelem_off w ext c), (qelem_off w O o) by assumption. rewrite EO. reflexivity.
      * split; [exact IC |]. destruct (grid_place shape args sels c s HS E2 E5 E4 P) as (_ & PL). split; [exact PL |]. intros d ID PD. destruct (picks_total sels d ID) as (s' & P'). destruct (grid_place shape args sels d s' HS E2 E5 E4 P') as (_ & PL').
        fold ext in PL'. assert (Q' : s' = s) by congruence. rewrite Q' in P'. assert (c = d) by exact (picks_inj shape args sels c d s E2 E4 P P'). subst d. lia.
    + intros s IS N. specialize (F4 s [] IS ltac:(constructor)). rewrite !app_nil_r in F4. apply F4. intros c IC PL. destruct (picks_total sels c IC) as (s' & P'). destruct (grid_place shape args sels c s' HS E2 E5 E4 P') as (_ & PL').
      fold ext in PL'. assert (Q' : s' = s) by congruence. rewrite Q' in P'. destruct (E11 c IC) as (o & I & EO). destruct (E9 o I) as (c' & s'' & T & P'' & _ & IC' & EO').
      assert (c' = c) by (eapply IdxProofs2.off_inj; [exact HE | exact IC' | exact IC | etransitivity; [symmetry; exact EO' | exact EO]]). subst c'. assert (Q2 : s'' = s) by (eapply SliceProps.picks_fun; eassumption). rewrite Q2 in T. exact (N o T).
Qed.
