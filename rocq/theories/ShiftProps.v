(** Properties of random shifts. *)
From Coq Require Import List ZArith Lia Bool QArith Qcanon.
From Verif Require Import FlipModel FlipSpec FlipProps FlowModel FlowSpec FlowProps ShiftModel ShiftSpec.
Import ListNotations.
Local Open Scope list_scope.
Local Open Scope Z_scope.

(** * C141: where values come from *)
(** Place [p] along an axis, for each mode. *)
Definition mirror (size p : Z) : Z := let a := p mod (2 * size) in if Z_lt_le_dec a size then a else 2 * size - 1 - a.
Definition beyond (m : mode) (size p : Z) : option Z := match m with Reflect => Some (mirror size p) | Nearest => Some (border size p) | Constant => inside size p end.
Theorem C141_mirror : forall size p, 0 < size -> mirrored size p (mirror size p) /\ forall r, mirrored size p r -> r = mirror size p.
Proof.
  intros size p P. unfold mirrored, mirror. pose proof (Z.div_mod p (2 * size) ltac:(lia)) as D. pose proof (Z.mod_pos_bound p (2 * size) ltac:(lia)) as B. set (a := p mod (2 * size)) in *. set (k := p / (2 * size)) in *. split.
  - destruct (Z_lt_le_dec a size); split; try lia; [exists k | exists (k + 1)]; lia.
  - intros r (R & k' & [E | E]).
    + assert (a = r) by (unfold a; rewrite E, Z.add_comm, Z.mod_add by lia; apply Z.mod_small; lia). destruct (Z_lt_le_dec a size); lia.
    + assert (a = 2 * size - 1 - r). { unfold a. rewrite E. replace (k' * (2 * size) - 1 - r) with (2 * size - 1 - r + (k' - 1) * (2 * size)) by ring. rewrite Z.mod_add by lia. apply Z.mod_small. lia. } destruct (Z_lt_le_dec a size); lia.
Qed.
Lemma entry_is m n stride shift i : (i < n)%nat -> 0 <= stride -> (m = Reflect -> 0 <= Z.of_nat i + Z.of_nat n * 2 + shift) ->
  match beyond m (Z.of_nat n) (Z.of_nat i + shift) with Some r => entry m n stride shift i = r * stride /\ 0 <= r < Z.of_nat n | None => entry m n stride shift i = CVAL_INDEX end.
Proof.
  intros I S R. unfold entry, beyond. destruct m.
  - specialize (R eq_refl). destruct (C141_mirror (Z.of_nat n) (Z.of_nat i + shift) ltac:(lia)) as ((B & _) & _). split; [| exact B]. f_equal. unfold mirror in *. destruct (Z.ltb_spec 1 (Z.of_nat n)).
    + rewrite Z.abs_eq, Z.rem_mod_nonneg by lia. replace (Z.of_nat i + Z.of_nat n * 2 + shift) with (Z.of_nat i + shift + 1 * (2 * Z.of_nat n)) by ring. replace (Z.of_nat n * 2) with (2 * Z.of_nat n) by ring. rewrite Z.mod_add by lia.
      destruct (Z.leb_spec (Z.of_nat n) ((Z.of_nat i + shift) mod (2 * Z.of_nat n))), (Z_lt_le_dec ((Z.of_nat i + shift) mod (2 * Z.of_nat n)) (Z.of_nat n)); lia.
    + destruct (Z.leb_spec (Z.of_nat n) 0); [lia |]. destruct (Z_lt_le_dec ((Z.of_nat i + shift) mod (2 * Z.of_nat n)) (Z.of_nat n)); lia.
  - split; [| apply border_in; lia]. f_equal. unfold border. destruct (Z_lt_le_dec (Z.of_nat i + shift) 0), (Z_lt_le_dec (Z.of_nat i + shift) (Z.of_nat n)); lia.
  - unfold inside. destruct (Z_lt_le_dec (Z.of_nat i + shift) 0), (Z_lt_le_dec (Z.of_nat i + shift) (Z.of_nat n)), (Z.ltb_spec (Z.of_nat i + shift) 0), (Z.leb_spec (Z.of_nat n) (Z.of_nat i + shift)); cbn [orb]; try lia; split; try reflexivity; lia.
Qed.
(** How far axis [d] of [ndim] is moved: [limits] belong to the last axes. *)
Definition amount (limits : list Z) (number : nat -> Z) (ndim i d : nat) : Z :=
  if (ndim <=? d + length limits)%nat then let q := (d + length limits - ndim)%nat in number (i * length limits + q)%nat mod (2 * nth q limits 0 + 1) - nth q limits 0 else 0.
Lemma draw_nth limits number i q : (q < length limits)%nat -> nth q (draw_shifts limits number i) 0 = number (i * length limits + q)%nat mod (2 * nth q limits 0 + 1) - nth q limits 0.
Proof.
  intros Q. unfold draw_shifts. set (f := fun id => _). rewrite (nth_indep _ 0 (f 0%nat)) by (rewrite map_length, seq_length; exact Q). rewrite map_nth, seq_nth by exact Q. unfold f. cbn [plus]. rewrite (Z.mul_comm 2). reflexivity.
Qed.
Lemma table_nth m limits number i D : forall shape id d size rest, (id + length shape = D)%nat -> skipn d shape = size :: rest ->
  nth d (prepare_addr_table m (draw_shifts limits number i) D id shape) [] = map (entry m size (count rest) (- amount limits number D i (id + d))) (seq 0 size).
Proof.
  induction shape as [| n s IH]; intros id d size rest L K; [destruct d; discriminate |]. cbn [length] in L. destruct d as [| d]; cbn [skipn prepare_addr_table nth] in *.
  - injection K as -> ->. apply map_ext. intros j. f_equal. rewrite Nat.add_0_r. unfold amount. assert (LD : length (draw_shifts limits number i) = length limits) by (unfold draw_shifts; rewrite map_length, seq_length; reflexivity). rewrite LD.
    destruct (Z.leb_spec 0 (Z.of_nat (length limits) - Z.of_nat D + Z.of_nat id)), (Nat.leb_spec D (id + length limits)); try lia.
    replace (Z.to_nat (Z.of_nat (length limits) - Z.of_nat D + Z.of_nat id)) with (id + length limits - D)%nat by lia. rewrite draw_nth by lia. reflexivity.
  - rewrite (IH (S id) d size rest) by (auto; lia). replace (S id + d)%nat with (id + S d)%nat by lia. reflexivity.
Qed.
Section Reads.
Variable tables : list (list (list Z)).
Variable k : nat.
Variable source : nat -> nat -> Z -> option Z.
Fixpoint good (dim : nat) (shape : list nat) : Prop :=
  match shape with
  | [] => True
  | n :: s => (forall j, (j < n)%nat -> match source dim n (Z.of_nat j) with Some r => nth j (nth dim (nth k tables []) []) 0 = r * elements s /\ 0 <= r | None => nth j (nth dim (nth k tables []) []) 0 = CVAL_INDEX end) /\ good (S dim) s
  end.
Definition value (x0 : Z) (dim : nat) (shape : list nat) (js : list Z) : Z :=
  if x0 =? CVAL_INDEX then CVAL_INDEX else match from source dim shape js with Some l => x0 + place shape l | None => CVAL_INDEX end.
Definition next (x0 : Z) (dim j : nat) : Z := let t := nth j (nth dim (nth k tables []) []) 0 in if (x0 =? CVAL_INDEX) || (t =? CVAL_INDEX) then CVAL_INDEX else x0 + t.
Lemma next_ok x0 dim n s j : good dim (n :: s) -> (j < n)%nat -> -1 <= x0 -> -1 <= next x0 dim j /\ forall js, value x0 dim (n :: s) (Z.of_nat j :: js) = value (next x0 dim j) (S dim) s js.
Proof.
  intros (G & _) J X. specialize (G j J). unfold next, value. cbn [from]. pose proof (elements_nn s) as EN. destruct (source dim n (Z.of_nat j)) as [r |].
  - destruct G as (-> & R). assert (RE : 0 <= r * elements s) by (apply Z.mul_nonneg_nonneg; lia). destruct (Z.eqb_spec x0 CVAL_INDEX) as [-> | NX]; cbn [orb]; [split; [unfold CVAL_INDEX; lia | reflexivity] |]. unfold CVAL_INDEX in *. destruct (Z.eqb_spec (r * elements s) (-1)); [lia |]. split; [lia |]. intros js. destruct (Z.eqb_spec (x0 + r * elements s) (-1)); [lia |].
    destruct (from source (S dim) s js); [| reflexivity]. cbn [place]. lia.
  - rewrite G, Z.eqb_refl, orb_true_r. split; [unfold CVAL_INDEX; lia |]. intros js. destruct (Z.eqb_spec x0 CVAL_INDEX); reflexivity.
Qed.
Lemma shift_sample base : forall shape dim x0, shape <> [] -> good dim shape -> -1 <= x0 -> (base <= dim)%nat ->
  shift_reads tables base dim shape x0 k = (map (value x0 dim shape) (indices shape), k).
Proof.
  induction shape as [| n s IH]; intros dim x0 NE G X B; [contradiction |]. clear NE. cbn [shift_reads indices]. rewrite map_flat. change (fun i => if (x0 =? CVAL_INDEX) || (nth i (nth dim (nth k tables []) []) 0 =? CVAL_INDEX) then CVAL_INDEX else x0 + nth i (nth dim (nth k tables []) []) 0) with (next x0 dim).
  destruct s as [| n1 s1] eqn:ES.
  - f_equal. rewrite <- flat_single. apply seq_ext_flat. intros j J. cbn [indices map]. f_equal. destruct (next_ok x0 dim n [] j G ltac:(lia) X) as (_ & E). rewrite E. unfold value. cbn [from place]. destruct (Z.eqb_spec (next x0 dim j) CVAL_INDEX); lia.
  - rewrite <- ES in *. assert (LT : Nat.ltb dim base = false) by (apply Nat.ltb_ge; exact B). rewrite LT. match goal with |- ?L n 0%nat k = _ => set (loop := L) end.
    assert (LL : forall c i, (i + c <= n)%nat -> loop c i k = (flat_map (fun j => map (value x0 dim (n :: s)) (map (cons (Z.of_nat j)) (indices s))) (seq i c), k)).
    { induction c as [| c IHc]; intros i I; [reflexivity |]. destruct (next_ok x0 dim n s i G ltac:(lia) X) as (N1 & N2).
      change (loop (S c) i k) with (let '(l, k1) := shift_reads tables base (S dim) s (next x0 dim i) k in let '(l', k2) := loop c (S i) k1 in (l ++ l', k2)). rewrite IH by (try (rewrite ES; discriminate); try lia; apply G). cbv beta iota. rewrite IHc by lia. cbn [seq flat_map]. f_equal. f_equal. rewrite map_map. apply map_ext. intros js. symmetry. apply N2. }
    apply LL. lia.
Qed.
End Reads.
Lemma tables_nth m shape limits number base i : (i < size_of base shape)%nat -> nth i (tables_of m base shape limits number) [] = prepare_addr_table m (draw_shifts limits number i) (length shape) 0 shape.
Proof.
  intros I. unfold tables_of. set (f := fun i => _). rewrite (nth_indep _ [] (f 0%nat)) by (rewrite map_length, seq_length; exact I). rewrite map_nth, seq_nth by exact I. reflexivity.
Qed.
(** Limits are not negative, and when mirrored not above twice the size of the axis. *)
Definition limits_ok (m : mode) (shape : list nat) (limits : list Z) : Prop :=
  forall q, (q < length limits)%nat -> 0 <= nth q limits 0 /\ (m = Reflect -> nth q limits 0 <= 2 * Z.of_nat (nth (length shape - length limits + q) shape 0%nat)).
Definition source (m : mode) (limits : list Z) (number : nat -> Z) (ndim i d n : nat) (j : Z) : option Z := beyond m (Z.of_nat n) (j - amount limits number ndim i d).
Lemma good_tables m shape limits number i base : limits_ok m shape limits -> (length limits <= length shape)%nat -> (i < size_of base shape)%nat ->
  forall d, good (tables_of m base shape limits number) i (source m limits number (length shape) i) d (skipn d shape).
Proof.
  intros LO LL I. assert (H : forall c d, (length shape - d = c)%nat -> good (tables_of m base shape limits number) i (source m limits number (length shape) i) d (skipn d shape)); [| intros d; apply (H _ d eq_refl)].
  induction c as [| c IH]; intros d E; [rewrite skipn_all2 by lia; exact Logic.I |]. destruct (skipn d shape) as [| n s] eqn:K; [exact Logic.I |]. cbn [good].
  assert (KS : skipn (S d) shape = s). { clear -K. revert d K. induction shape as [| a sh IHs]; intros [| d] K; try discriminate; [injection K as _ <-; reflexivity | apply (IHs d K)]. }
  assert (ND : nth d shape 0%nat = n). { clear -K. revert d K. induction shape as [| a sh IHs]; intros [| d] K; try discriminate; [injection K as -> _; reflexivity | apply (IHs d K)]. }
  split; [| rewrite <- KS; apply IH; lia]. intros j J. rewrite tables_nth by exact I. rewrite (table_nth m limits number i (length shape) shape 0 d n s eq_refl K). cbn [plus].
  set (f := entry m n (count s) (- amount limits number (length shape) i d)). rewrite (nth_indep _ 0 (f 0%nat)) by (rewrite map_length, seq_length; exact J). rewrite map_nth, seq_nth by exact J. cbn [plus]. unfold f. clear f. rewrite count_elements.
  assert (R : m = Reflect -> 0 <= Z.of_nat j + Z.of_nat n * 2 + - amount limits number (length shape) i d).
  { intros M. unfold amount. destruct (Nat.leb_spec (length shape) (d + length limits)) as [A |]; [| lia]. set (q := (d + length limits - length shape)%nat). destruct (LO q ltac:(unfold q; lia)) as (L0 & L1). specialize (L1 M). replace (length shape - length limits + q)%nat with d in L1 by (unfold q; lia). rewrite ND in L1. pose proof (Z.mod_pos_bound (number (i * length limits + q)%nat) (2 * nth q limits 0 + 1) ltac:(lia)). lia. }
  pose proof (entry_is m n (elements s) (- amount limits number (length shape) i d) j J (elements_nn s) R) as E'. unfold source, Z.sub. destruct (beyond m (Z.of_nat n) (Z.of_nat j + - amount limits number (length shape) i d)); [| exact E']. destruct E' as (-> & E'). split; [reflexivity | lia].
Qed.
Lemma samples m limits number n s : s <> [] -> (length limits <= length s)%nat -> limits_ok m (n :: s) limits ->
  offsets m 1 (n :: s) limits number = flat_map (fun i => map (value (source m limits number (length (n :: s)) i) (Z.of_nat i * elements s) 1 s) (indices s)) (seq 0 n).
Proof.
  intros NE LS LO. unfold offsets. set (tables := tables_of m 1 (n :: s) limits number). assert (SZ : size_of 1 (n :: s) = n) by (unfold size_of; cbn [firstn fold_right]; lia).
  assert (LT : length tables = n) by (unfold tables, tables_of; rewrite map_length, seq_length; exact SZ).
  assert (GO : forall i, (i < n)%nat -> good tables i (source m limits number (length (n :: s)) i) 1 s) by (intros i I; apply (good_tables m (n :: s) limits number i 1 LO ltac:(cbn [length]; lia) ltac:(rewrite SZ; exact I) 1%nat)).
  destruct (Nat.eq_dec n 0) as [Z0 | NZ]; [rewrite Z0; destruct s; [contradiction | reflexivity] |].
  assert (G0 : forall j, (j < n)%nat -> nth j (nth 0 (nth 0 tables []) []) 0 = Z.of_nat j * elements s).
  { intros j J. destruct (good_tables m (n :: s) limits number 0 1 LO ltac:(cbn [length]; lia) ltac:(rewrite SZ; lia) 0%nat) as (G & _). specialize (G j J). fold tables in G. unfold source, amount in G. cbn [length plus] in G. destruct (Nat.leb_spec (S (length s)) (length limits)); [lia |]. rewrite Z.sub_0_r in G.
    assert (BY : beyond m (Z.of_nat n) (Z.of_nat j) = Some (Z.of_nat j)). { destruct m; cbn [beyond]; f_equal; unfold mirror, border, inside; [rewrite Z.mod_small by lia; destruct (Z_lt_le_dec (Z.of_nat j) (Z.of_nat n)); lia | |]; destruct (Z_lt_le_dec (Z.of_nat j) 0), (Z_lt_le_dec (Z.of_nat j) (Z.of_nat n)); try lia; reflexivity. }
    rewrite BY in G. apply G. }
  cbn [shift_reads]. destruct s as [| n1 s1] eqn:ES; [contradiction |]. rewrite <- ES in *. cbn [Nat.ltb Nat.leb].
  match goal with |- fst (?L n 0%nat 0%nat) = _ => set (loop := L) end.
  assert (LL : forall c i, (i + c = n)%nat -> fst (loop c i i) = flat_map (fun i => map (value (source m limits number (length (n :: s)) i) (Z.of_nat i * elements s) 1 s) (indices s)) (seq i c)).
  { induction c as [| c IHc]; intros i I; [reflexivity |]. pose proof (elements_nn s) as EP. assert (XP : 0 <= Z.of_nat i * elements s) by (apply Z.mul_nonneg_nonneg; lia).
    change (loop (S c) i i) with (let '(l, k) := shift_reads tables 1 1 s (if (0 =? CVAL_INDEX) || (nth i (nth 0 (nth 0 tables []) []) 0 =? CVAL_INDEX) then CVAL_INDEX else 0 + nth i (nth 0 (nth 0 tables []) []) 0) i in let '(l', k) := loop c (S i) ((k + 1) mod length tables)%nat in (l ++ l', k)).
    rewrite G0 by lia. destruct (Z.eqb_spec (Z.of_nat i * elements s) CVAL_INDEX) as [Q | _]; [unfold CVAL_INDEX in Q; lia |]. cbn [Z.eqb CVAL_INDEX orb]. rewrite Z.add_0_l.
    rewrite (shift_sample tables i _ 1 s 1 (Z.of_nat i * elements s)) by (try (rewrite ES; discriminate); try lia; apply GO; lia).
    cbn [seq flat_map]. destruct c as [| c1].
    - cbn [seq flat_map]. unfold loop. cbn [fst]. reflexivity.
    - assert (KM : ((i + 1) mod length tables = S i)%nat) by (rewrite LT, Nat.mod_small by lia; lia). rewrite KM. specialize (IHc (S i) ltac:(lia)). destruct (loop (S c1) (S i) (S i)) as (l', k'). cbn [fst] in *. rewrite IHc. reflexivity. }
  apply (LL n 0%nat). lia.
Qed.
Lemma from_place T k src : forall s d js l, good T k src d s -> In js (indices s) -> from src d s js = Some l -> 0 <= place s l.
Proof.
  induction s as [| a sh IH]; intros d js l G J F; [cbn [place]; lia |]. cbn [indices] in J. apply in_flat_map in J. destruct J as (j & J1 & J2). apply in_map_iff in J2. destruct J2 as (js1 & <- & J2). apply in_seq in J1. destruct G as (G1 & G2). specialize (G1 j ltac:(lia)). cbn [from] in F. destruct (src d a (Z.of_nat j)) as [r |]; [| discriminate].
  destruct (from src (S d) sh js1) as [l1 |] eqn:F1; [| discriminate]. injection F as <-. cbn [place]. pose proof (IH (S d) js1 l1 G2 J2 F1). pose proof (elements_nn sh). destruct G1 as (_ & R). assert (0 <= r * elements sh) by (apply Z.mul_nonneg_nonneg; lia). lia.
Qed.
(** Each sample is moved along the last axes by the numbers drawn for it, and goes on beyond its
    border as the mode says. *)
Theorem C141_values : forall m cval n s limits number x i js, s <> [] -> (length limits <= length s)%nat -> limits_ok m (n :: s) limits -> (i < n)%nat -> In js (indices s) ->
  nth (Z.to_nat (place (n :: s) (Z.of_nat i :: js))) (shift_forward m cval 1 (n :: s) limits number x) 0%Qc =
  match from (fun d size j => beyond m (Z.of_nat size) (j - amount limits number (length (n :: s)) i d)) 1 s js with
  | Some js' => nth (Z.to_nat (place (n :: s) (Z.of_nat i :: js'))) x 0%Qc
  | None => cval
  end.
Proof.
  intros m cval n s limits number x i js NE LS LO I J. unfold shift_forward. apply nth_error_nth. rewrite nth_error_map, samples by assumption. destruct (indices_at s js J) as (B & E). cbn [place]. pose proof (elements_nn s) as EP. rewrite Z2Nat.inj_add, Z2Nat.inj_mul, Nat2Z.id by (lia || nia).
  rewrite (flat_at _ (Z.to_nat (elements s))); [| intros j _; rewrite map_length; apply indices_length | exact I | lia]. cbn [plus]. rewrite nth_error_map, E. cbn [option_map]. f_equal. unfold read, value. assert (XP : 0 <= Z.of_nat i * elements s) by (apply Z.mul_nonneg_nonneg; lia).
  destruct (Z.eqb_spec (Z.of_nat i * elements s) CVAL_INDEX) as [Q | _]; [unfold CVAL_INDEX in Q; lia |].
  change (fun (d size : nat) (j : Z) => beyond m (Z.of_nat size) (j - amount limits number (length (n :: s)) i d)) with (source m limits number (length (n :: s)) i).
  assert (PN : forall l, from (source m limits number (length (n :: s)) i) 1 s js = Some l -> 0 <= place s l).
  { intros l. apply (from_place (tables_of m 1 (n :: s) limits number) i _ s 1%nat js l); [| exact J]. apply (good_tables m (n :: s) limits number i 1 LO ltac:(cbn [length]; lia) ltac:(unfold size_of; cbn [firstn fold_right]; lia) 1%nat). }
  destruct (from (source m limits number (length (n :: s)) i) 1 s js) as [l |]; [| rewrite Z.eqb_refl; reflexivity]. specialize (PN l eq_refl). destruct (Z.eqb_spec (Z.of_nat i * elements s + place s l) CVAL_INDEX) as [Q | _]; [unfold CVAL_INDEX in Q; lia | reflexivity].
Qed.

(** Draws are within the limits on both sides, and each of them is drawn for some number. *)
Theorem C141_amount : forall limits number ndim i d limit, (ndim <= d + length limits)%nat -> (d < ndim)%nat -> nth (d + length limits - ndim)%nat limits 0 = limit -> 0 <= limit ->
  (- limit <= amount limits number ndim i d <= limit) /\ (forall v, - limit <= v <= limit -> amount limits (fun _ => v + limit) ndim i d = v).
Proof.
  intros limits number ndim i d limit E D <- L. unfold amount. destruct (Nat.leb_spec ndim (d + length limits)); [| lia]. set (q := (d + length limits - ndim)%nat) in *. cbv zeta. pose proof (Z.mod_pos_bound (number (i * length limits + q)%nat) (2 * nth q limits 0 + 1) ltac:(lia)). split; [lia |]. intros v V. rewrite Z.mod_small by lia. lia.
Qed.
(** Refuted: shifts beyond twice the size are mirrored as others.  With a row of two elements, moved
    by 6, both become the second element of the input, but the second should be the first. *)
Theorem C141_far_refuted : entry Reflect 2 1 (-6) 0 = 1 /\ entry Reflect 2 1 (-6) 1 = 1 /\ mirrored 2 (0 + -6) 1 /\ mirrored 2 (1 + -6) 0.
Proof. split; [reflexivity |]. split; [reflexivity |]. split; (split; [lia |]). - exists (-1). right. reflexivity. - exists (-1). right. reflexivity. Qed.

(** * C142: gradients *)
Lemma add_at_dot_any v : forall l i d, length l = length d -> dot (add_at i v l) d = (dot l d + v * nth i d 0)%Qc.
Proof. intros l i d L. destruct (Nat.lt_ge_cases i (length l)) as [I | I]; [apply add_at_dot; assumption |]. rewrite (nth_overflow d) by lia. assert (E : add_at i v l = l). { clear -I. revert i I. induction l as [| a l IH]; intros [| i] I; cbn [add_at length] in *; try reflexivity; [lia |]. rewrite IH by lia. reflexivity. } rewrite E. ring. Qed.
(** The gradient is the transpose of forward with 0 for the constant; with the constant, forward is
    that plus the constant where the input is not read. *)
Theorem C142_gradient : forall m base shape limits number accum dx dy d, length dx = length d ->
  dot (shift_backward m base shape limits number accum dx dy) d = ((if accum then dot dx d else 0) + dot dy (shift_forward m 0 base shape limits number d))%Qc.
Proof.
  intros m base shape limits number accum dx dy d L. rewrite <- zeroed_dot. unfold shift_backward, shift_forward. assert (LZ : length (zeroed accum dx) = length d) by (rewrite zeroed_length; exact L). revert LZ. generalize (zeroed accum dx). revert dy. generalize (offsets m base shape limits number).
  induction l as [| o l IH]; intros dy g LZ; cbn [combine fold_left map]; [destruct dy; cbn [dot]; ring |]. destruct dy as [| e dy]; cbn [combine fold_left dot]; [ring |]. unfold read at 1. destruct (Z.eqb o CVAL_INDEX).
  - rewrite IH by exact LZ. ring.
  - rewrite IH by (rewrite add_at_length; exact LZ). rewrite add_at_dot_any by exact LZ. ring.
Qed.
Theorem C142_linear : forall m cval base shape limits number x dx, length x = length dx ->
  shift_forward m cval base shape limits number (map (fun p => fst p + snd p)%Qc (combine x dx)) =
  map (fun p => fst p + snd p)%Qc (combine (shift_forward m cval base shape limits number x) (shift_forward m 0 base shape limits number dx)).
Proof.
  intros m cval base shape limits number x dx L. unfold shift_forward. generalize (offsets m base shape limits number). induction l as [| o l IH]; [reflexivity |]. cbn [map combine]. f_equal; [| exact IH]. cbn [fst snd]. unfold read. destruct (Z.eqb o CVAL_INDEX); [ring |]. generalize (Z.to_nat o). clear -L. revert dx L. induction x as [| a x IHx]; intros [| b dx] L k; try discriminate; [destruct k; cbn [combine map nth]; ring |]. destruct k; cbn [combine map nth fst snd]; [reflexivity |]. apply IHx. injection L as L. exact L.
Qed.
(** Refuted: with two sample axes every sample has shifts of its own.  The last sample takes the
    shifts of the first, and the shifts of the third are never used. *)
Definition one_at (k i : nat) : Z := if Nat.eqb i k then 2 else 1.
Theorem C142_two_axes_refuted : shown (shift_forward Constant 0 2 [2; 2; 2]%nat [1] (one_at 0) (numbered 8)) = map inject_Z [0; 0; 2; 3; 4; 5; 0; 6] /\
  shown (shift_forward Constant 0 2 [2; 2; 2]%nat [1] (one_at 2) (numbered 8)) = map inject_Z [0; 1; 2; 3; 4; 5; 6; 7].
Proof. split; vm_compute; reflexivity. Qed.
Example shift_works : shown (shift_forward Constant (Q2Qc 9) 1 [2; 3]%nat [1] (fun i => if Nat.eqb i 0 then 0 else 2) (numbered 6)) = map inject_Z [1; 2; 9; 9; 3; 4] /\
  shown (shift_forward Nearest 0 1 [2; 3]%nat [1] (fun i => if Nat.eqb i 0 then 0 else 2) (numbered 6)) = map inject_Z [1; 2; 2; 3; 3; 4] /\
  shown (shift_forward Reflect 0 1 [1; 2; 2]%nat [1; 2] (fun i => if Nat.eqb i 0 then 2 else 0) (numbered 4)) = map inject_Z [1; 0; 1; 0].
Proof. repeat split; vm_compute; reflexivity. Qed.
Example shift_back_works : shown (shift_backward Nearest 1 [2; 3]%nat [1] (fun i => if Nat.eqb i 0 then 0 else 2) true (numbered 6) (numbered 6)) = map inject_Z [0; 1; 5; 10; 9; 5].
Proof. vm_compute. reflexivity. Qed.
Example limits_work : limits_ok Reflect [2; 3]%nat [6].
Proof. intros [| q] Q; cbn in *; [split; lia | lia]. Qed.
Print Assumptions C141_values.
Print Assumptions C141_amount.
Print Assumptions C142_gradient.
Print Assumptions C142_linear.
