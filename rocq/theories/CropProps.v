(** Properties of random crops. *)
From Coq Require Import List ZArith Lia Bool QArith Qcanon.
From Verif Require Import FlipModel FlipSpec FlipProps FlowModel FlowSpec FlowProps ShiftProps CropModel CropSpec.
Import ListNotations.
Local Open Scope list_scope.
Local Open Scope Z_scope.

Lemma crop_sample starts base k : forall ins outs dim x0, ins <> [] -> length ins = length outs -> (base <= dim)%nat ->
  crop_reads starts base dim ins outs x0 k = (map (fun js => x0 + place ins (moved_by (fun d => nth d (nth k starts []) 0) dim js)) (indices outs), k).
Proof.
  induction ins as [| n s IH]; intros [| o outs] dim x0 NE L B; try contradiction; try discriminate. clear NE. cbn [crop_reads indices length] in *. set (st := nth dim (nth k starts []) 0). rewrite map_flat. rewrite count_elements. destruct s as [| n1 s1] eqn:ES.
  - destruct outs; [| discriminate]. f_equal. rewrite <- flat_single. apply seq_ext_flat. intros i _. cbn [indices map moved_by place elements]. fold st. f_equal. ring.
  - rewrite <- ES in *. assert (LT : Nat.ltb dim base = false) by (apply Nat.ltb_ge; exact B). rewrite LT. match goal with |- ?L o ?c k = _ => set (loop := L) end.
    assert (LL : forall m i, loop m (x0 + (Z.of_nat i + st) * elements s) k = (flat_map (fun j => map (fun js => x0 + place (n :: s) (moved_by (fun d => nth d (nth k starts []) 0) dim js)) (map (cons (Z.of_nat j)) (indices outs))) (seq i m), k)).
    { induction m as [| m IHm]; intros i; [reflexivity |].
      change (loop (S m) (x0 + (Z.of_nat i + st) * elements s) k) with (let '(l, k1) := crop_reads starts base (S dim) s outs (x0 + (Z.of_nat i + st) * elements s) k in let '(l', k2) := loop m (x0 + (Z.of_nat i + st) * elements s + elements s) k1 in (l ++ l', k2)).
      rewrite IH by (try (rewrite ES; discriminate); lia). cbv beta iota. replace (x0 + (Z.of_nat i + st) * elements s + elements s) with (x0 + (Z.of_nat (S i) + st) * elements s) by lia. rewrite IHm. cbn [seq flat_map]. f_equal. f_equal. rewrite map_map. apply map_ext. intros js. cbn [moved_by place]. fold st. ring. }
    rewrite <- (LL o 0%nat). f_equal. cbn [Z.of_nat]. ring.
Qed.
(** Where sample [i] starts along axis [d]. *)
Definition start (ins crop : list nat) (number : nat -> Z) (i d : nat) : Z :=
  if Nat.leb (length ins) (d + length crop) then number (i * length crop + (d + length crop - length ins))%nat mod (Z.of_nat (nth d ins 0%nat) - Z.of_nat (nth (d + length crop - length ins) crop 0%nat) + 1) else 0.
Lemma starts_at base ins crop number i d : (length crop <= length ins)%nat -> (i < size_of base ins)%nat -> (d < length ins)%nat -> nth d (nth i (starts_of base ins crop number) []) 0 = start ins crop number i d.
Proof.
  intros LC I D. unfold starts_of. set (row := fun id => _). rewrite (nth_indep _ [] (row 0%nat)) by (rewrite map_length, seq_length; exact I). rewrite map_nth, seq_nth by exact I. cbn [plus]. unfold row. clear row. set (f := fun i0 => _). rewrite (nth_indep _ 0 (f 0%nat)) by (rewrite map_length, seq_length; exact D). rewrite map_nth, seq_nth by exact D. unfold f, start. cbn [plus].
  destruct (Nat.leb_spec (length ins - length crop) d), (Nat.leb_spec (length ins) (d + length crop)); try lia. replace (d - (length ins - length crop))%nat with (d + length crop - length ins)%nat by lia. reflexivity.
Qed.
Lemma moved_ext f g : forall js dim, (forall d, (dim <= d < dim + length js)%nat -> f d = g d) -> moved_by f dim js = moved_by g dim js.
Proof. induction js as [| j js IH]; intros dim H; [reflexivity |]. cbn [moved_by length] in *. rewrite H by lia. f_equal. apply IH. intros d D. apply H. lia. Qed.
Lemma index_length : forall s js, In js (indices s) -> length js = length s.
Proof. induction s as [| n s IH]; intros js I; cbn [indices] in I; [destruct I as [<- | []]; reflexivity |]. apply in_flat_map in I. destruct I as (j & _ & M). apply in_map_iff in M. destruct M as (js1 & <- & M). cbn [length]. rewrite (IH _ M). reflexivity. Qed.
Lemma crop_samples n s outs crop number : s <> [] -> length s = length outs -> (length crop <= length s)%nat ->
  crop_offsets 1 (n :: s) crop number (n :: outs) = flat_map (fun i => map (fun js => place (n :: s) (Z.of_nat i :: moved_by (start (n :: s) crop number i) 1 js)) (indices outs)) (seq 0 n).
Proof.
  intros NE L LC. unfold crop_offsets. set (starts := starts_of 1 (n :: s) crop number). assert (SZ : size_of 1 (n :: s) = n) by (unfold size_of; cbn [firstn fold_right]; lia).
  assert (LT : length starts = n) by (unfold starts, starts_of; rewrite map_length, seq_length; exact SZ).
  destruct (Nat.eq_dec n 0) as [Z0 | NZ]; [rewrite Z0; destruct s; [contradiction | reflexivity] |].
  assert (ST : forall i d, (i < n)%nat -> (d < S (length s))%nat -> nth d (nth i starts []) 0 = start (n :: s) crop number i d) by (intros i d I D; apply starts_at; rewrite ?SZ; cbn [length]; lia).
  assert (S0 : nth 0 (nth 0 starts []) 0 = 0). { unfold starts. rewrite starts_at by (rewrite ?SZ; cbn [length]; lia). unfold start. cbn [length plus]. destruct (Nat.leb_spec (S (length s)) (length crop)); [lia | reflexivity]. }
  clearbody starts. cbn [crop_reads]. rewrite S0, count_elements. destruct s as [| n1 s1] eqn:ES; [contradiction |]. rewrite <- ES in *. cbn [Nat.ltb Nat.leb].
  match goal with |- fst (?L n ?c 0%nat) = _ => set (loop := L) end.
  assert (LL : forall c i, (i + c = n)%nat -> fst (loop c (Z.of_nat i * elements s) i) = flat_map (fun i => map (fun js => place (n :: s) (Z.of_nat i :: moved_by (start (n :: s) crop number i) 1 js)) (indices outs)) (seq i c)).
  { induction c as [| c IHc]; intros i I; [reflexivity |].
    change (loop (S c) (Z.of_nat i * elements s) i) with (let '(l, k) := crop_reads starts 1 1 s outs (Z.of_nat i * elements s) i in let '(l', k) := loop c (Z.of_nat i * elements s + elements s) ((k + 1) mod length starts)%nat in (l ++ l', k)).
    rewrite (crop_sample starts 1 i s outs 1) by (try (rewrite ES; discriminate); lia). cbn [seq flat_map].
    assert (EH : map (fun js => Z.of_nat i * elements s + place s (moved_by (fun d => nth d (nth i starts []) 0) 1 js)) (indices outs) = map (fun js => place (n :: s) (Z.of_nat i :: moved_by (start (n :: s) crop number i) 1 js)) (indices outs)).
    { apply map_ext_in. intros js J. cbn [place]. do 2 f_equal. apply moved_ext. intros d D. apply index_length in J. apply ST; lia. }
    rewrite EH. destruct c as [| c1].
    - cbn [seq flat_map]. unfold loop. cbn [fst]. reflexivity.
    - assert (KM : ((i + 1) mod length starts = S i)%nat) by (rewrite LT, Nat.mod_small by lia; lia). rewrite KM. replace (Z.of_nat i * elements s + elements s) with (Z.of_nat (S i) * elements s) by lia. specialize (IHc (S i) ltac:(lia)). destruct (loop (S c1) (Z.of_nat (S i) * elements s) (S i)) as (l', k'). cbn [fst] in *. rewrite IHc. reflexivity. }
  specialize (LL n 0%nat ltac:(lia)). rewrite <- LL. do 2 f_equal. cbn [Z.of_nat]. lia.
Qed.

(** * C143 *)
(** Each sample is cut from where the numbers drawn for it say. *)
Theorem C143_values : forall n s outs crop number x i js, s <> [] -> length s = length outs -> (length crop <= length s)%nat -> (i < n)%nat -> In js (indices outs) ->
  nth (Z.to_nat (place (n :: outs) (Z.of_nat i :: js))) (crop_forward 1 (n :: s) crop (n :: outs) number x) 0%Qc =
  nth (Z.to_nat (place (n :: s) (Z.of_nat i :: moved_by (start (n :: s) crop number i) 1 js))) x 0%Qc.
Proof.
  intros n s outs crop number x i js NE L LC I J. unfold crop_forward. apply nth_error_nth. rewrite nth_error_map, crop_samples by assumption. destruct (indices_at outs js J) as (B & E). cbn [place]. pose proof (elements_nn outs) as EP. rewrite Z2Nat.inj_add, Z2Nat.inj_mul, Nat2Z.id by (lia || nia).
  rewrite (flat_at _ (Z.to_nat (elements outs))); [| intros j _; rewrite map_length; apply indices_length | exact I | lia]. cbn [plus]. rewrite nth_error_map, E. reflexivity.
Qed.
(** The cut is within the input, and every cut that is within it can be drawn. *)
Theorem C143_start : forall ins crop number i d a b, (length crop <= length ins)%nat -> (length ins <= d + length crop)%nat -> nth d ins 0%nat = a -> nth (d + length crop - length ins) crop 0%nat = b -> (b <= a)%nat ->
  0 <= start ins crop number i d <= Z.of_nat a - Z.of_nat b /\ forall v, 0 <= v <= Z.of_nat a - Z.of_nat b -> start ins crop (fun _ => v) i d = v.
Proof.
  intros ins crop number i d a b LC D <- <- LE. unfold start. destruct (Nat.leb_spec (length ins) (d + length crop)); [| lia]. set (m := Z.of_nat (nth d ins 0%nat) - Z.of_nat (nth (d + length crop - length ins) crop 0%nat)) in *. assert (0 <= m) by (unfold m; lia). split.
  - pose proof (Z.mod_pos_bound (number (i * length crop + (d + length crop - length ins))%nat) (m + 1) ltac:(lia)). lia.
  - intros v V. apply Z.mod_small. lia.
Qed.
(** The shape of the output: the last sizes are those to crop to, and no size grows. *)
Theorem C143_setup : forall ins crop outs, crop_setup ins crop = Cropped outs <->
  (length crop <= length ins)%nat /\ outs = firstn (length ins - length crop) ins ++ crop /\ forall d, (d < length ins)%nat -> (nth d outs 0 <= nth d ins 0)%nat.
Proof.
  intros ins crop outs. unfold crop_setup. destruct (Nat.ltb_spec (length ins) (length crop)) as [A | A]; [split; [discriminate | lia] |]. set (off := (length ins - length crop)%nat). assert (LF : length (firstn off ins) = off) by (rewrite firstn_length; lia).
  assert (ND : forall d, (d < length ins)%nat -> nth d (firstn off ins ++ crop) 0%nat = if Nat.ltb d off then nth d ins 0%nat else nth (d - off) crop 0%nat).
  { intros d D. destruct (Nat.ltb_spec d off); [| rewrite app_nth2 by lia; rewrite LF; reflexivity]. rewrite app_nth1 by lia. rewrite <- (firstn_skipn off ins) at 2. rewrite app_nth1 by lia. reflexivity. }
  destruct (forallb _ _) eqn:F; [rewrite forallb_forall in F |].
  - split; [intros E; injection E as <-; split; [lia | split; [reflexivity |]] | intros (_ & -> & _); reflexivity]. intros d D. rewrite ND by exact D. destruct (Nat.ltb_spec d off); [lia |]. specialize (F (d - off)%nat ltac:(apply in_seq; lia)). apply Nat.leb_le in F. replace (d - off + off)%nat with d in F by lia. exact F.
  - split; [discriminate |]. intros (_ & -> & H). assert (T : forallb (fun i => Nat.leb (nth i crop 0%nat) (nth (i + off) ins 0%nat)) (seq 0 (length crop)) = true); [| rewrite T in F; discriminate]. apply forallb_forall. intros i I. apply in_seq in I. apply Nat.leb_le. specialize (H (i + off)%nat ltac:(lia)). rewrite ND in H by lia. destruct (Nat.ltb_spec (i + off) off); [lia |]. replace (i + off - off)%nat with i in H by lia. exact H.
Qed.
(** The gradient is the transpose of forward. *)
Theorem C143_gradient : forall base ins crop outs number accum dx dy d, length dx = length d ->
  dot (crop_backward base ins crop outs number accum dx dy) d = ((if accum then dot dx d else 0) + dot dy (crop_forward base ins crop outs number d))%Qc.
Proof.
  intros base ins crop outs number accum dx dy d L. rewrite <- zeroed_dot. unfold crop_backward, crop_forward. assert (LZ : length (zeroed accum dx) = length d) by (rewrite zeroed_length; exact L). revert LZ. generalize (zeroed accum dx). revert dy. generalize (crop_offsets base ins crop number outs).
  induction l as [| o l IH]; intros dy g LZ; cbn [combine fold_left map]; [destruct dy; cbn [dot]; ring |]. destruct dy as [| e dy]; cbn [combine fold_left dot]; [ring |]. rewrite IH by (rewrite add_at_length; exact LZ). rewrite add_at_dot_any by exact LZ. ring.
Qed.
(** Refuted: more sizes than axes are refused; and with two sample axes every sample has a cut of its
    own.  The last sample takes the cut of the first, and the cut of the third is never used. *)
Definition only (k i : nat) : Z := if Nat.eqb i k then 1 else 0.
Theorem C143_setup_refuted : crop_setup [2%nat] [1%nat; 2%nat] = Undefined.
Proof. reflexivity. Qed.
Theorem C143_two_axes_refuted :
  shown (crop_forward 2 [2; 2; 2]%nat [1%nat] [2; 2; 1]%nat (only 0) (numbered 8)) = map inject_Z [1; 2; 4; 7] /\
  shown (crop_forward 2 [2; 2; 2]%nat [1%nat] [2; 2; 1]%nat (only 2) (numbered 8)) = map inject_Z [0; 2; 4; 6].
Proof. split; vm_compute; reflexivity. Qed.
Example crop_works : shown (crop_forward 1 [2; 2; 3]%nat [1; 2]%nat [2; 1; 2]%nat (only 0) (numbered 12)) = map inject_Z [3; 4; 6; 7] /\ shown (crop_forward 1 [2; 2; 3]%nat [1; 2]%nat [2; 1; 2]%nat (only 3) (numbered 12)) = map inject_Z [0; 1; 7; 8].
Proof. split; vm_compute; reflexivity. Qed.
Example crop_back_works : shown (crop_backward 1 [2; 3]%nat [2%nat] [2; 2]%nat (only 1) true (numbered 6) (numbered 4)) = map inject_Z [0; 2; 2; 3; 6; 8].
Proof. vm_compute. reflexivity. Qed.
Example crop_setup_works : crop_setup [4; 5; 6]%nat [3; 6]%nat = Cropped [4; 3; 6]%nat /\ crop_setup [4; 5; 6]%nat [6; 6]%nat = Refused.
Proof. split; reflexivity. Qed.
Print Assumptions C143_values.
Print Assumptions C143_start.
Print Assumptions C143_setup.
Print Assumptions C143_gradient.
