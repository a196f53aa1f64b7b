(** The compressed axes reach the same elements as the axes themselves. *)
From Coq Require Import List ZArith Bool Lia QArith Qcanon.
From Verif Require Import NdSpec NdProofs IdxModel IdxProofs1 IdxProofs2 IdxProofs3 JoinModel JoinProofs ScanModel ScanProofs1 ReduceModel ConvModel ConvProofs3 MatSpec MatModel MatProofs2 BinModel.
Import ListNotations.
Local Open Scope list_scope.
Local Open Scope Z_scope.

(** One input: pairs of its extent and that of the output. *)
Definition ins (L : list (Z * Z)) : Z := size (map fst L).
Definition outs (L : list (Z * Z)) : Z := size (map snd L).
Fixpoint reach (L : list (Z * Z)) (idx : Z) : Z :=
  match L with
  | [] => 0
  | (a, y) :: L => (idx / outs L) mod y * (if a =? y then ins L else 0) + reach L idx
  end.
Definition extents (L : list (Z * Z)) : Prop := Forall (fun '(a, y) => 0 < y /\ (a = y \/ a = 1)) L.
Lemma extents_outs L : extents L -> 0 < outs L.
Proof. unfold outs. induction 1 as [| [a y] L (H & _) E IH]; cbn [map size snd]; lia. Qed.
Lemma reach_mod L : extents L -> forall d r, 0 <= r < outs L -> reach L (d * outs L + r) = reach L r.
Proof.
  intros E. induction E as [| [a y] L (Hy & _) E IH]; intros d r Hr; [reflexivity |]. cbn [reach]. assert (P := extents_outs _ E).
  assert (O : outs ((a, y) :: L) = y * outs L) by reflexivity. rewrite O in *. set (m := outs L) in *.
  replace (d * (y * m) + r) with (r + d * y * m) by ring. rewrite Z.div_add by lia. rewrite Z.mod_add by lia. f_equal.
  replace (r + d * y * m) with ((d * y + r / m) * m + r mod m) by (pose proof (Z.div_mod r m); lia).
  rewrite IH by (apply Z.mod_pos_bound; lia). replace r with ((r / m) * m + r mod m) at 2 by (pose proof (Z.div_mod r m); lia).
  rewrite IH by (apply Z.mod_pos_bound; lia). reflexivity.
Qed.
Lemma reach_cons a y L d r : 0 < y -> extents L -> 0 <= d < y -> 0 <= r < outs L -> reach ((a, y) :: L) (d * outs L + r) = d * (if a =? y then ins L else 0) + reach L r.
Proof.
  intros Hy E Hd Hr. cbn [reach]. rewrite reach_mod by assumption. f_equal. f_equal.
  rewrite Z.add_comm, Z.div_add by lia. rewrite (Z.div_small r) by lia. apply Z.mod_small. lia.
Qed.
(** Two axes that are both broadcast, or both not, are one. *)
Lemma reach_merge a y a' y' L r : 0 < y -> 0 < y' -> (a = y /\ a' = y') \/ (a = 1 /\ a' = 1) -> extents L -> 0 <= r < y * y' * outs L ->
  reach ((a * a', y * y') :: L) r = reach ((a, y) :: (a', y') :: L) r.
Proof.
  intros Hy Hy' K E Hr. assert (P := extents_outs _ E). set (m := outs L) in *.
  assert (E' : extents ((a', y') :: L)) by (constructor; [split; [lia | destruct K; lia] | exact E]).
  assert (O' : outs ((a', y') :: L) = y' * m) by reflexivity.
  set (d := r / (y' * m)). set (e := r / m mod y'). set (q := r mod m).
  assert (DM := Z.div_mod r m ltac:(lia)). assert (Q := Z.mod_pos_bound r m ltac:(lia)). fold q in DM, Q.
  assert (E1 : r / m = y' * d + e). { unfold d, e. rewrite (Z.mul_comm y' m), <- Z.div_div by lia. pose proof (Z.div_mod (r / m) y'). lia. }
  assert (Be := Z.mod_pos_bound (r / m) y' ltac:(lia)). fold e in Be.
  assert (Bd : 0 <= d < y). { unfold d. split; [apply Z.div_pos; lia | apply Z.div_lt_upper_bound; lia]. }
  replace (reach ((a * a', y * y') :: L) r) with (reach ((a * a', y * y') :: L) ((y' * d + e) * m + q)) by (f_equal; lia).
  unfold m in Q |- *. rewrite reach_cons by (try assumption; try nia). fold m in Q |- *.
  replace (reach ((a, y) :: (a', y') :: L) r) with (reach ((a, y) :: (a', y') :: L) (d * outs ((a', y') :: L) + (e * m + q))) by (f_equal; rewrite O'; nia).
  rewrite reach_cons by (try assumption; rewrite ?O'; try nia). unfold m in Q |- *. rewrite reach_cons by (try assumption; try nia). fold m in Q |- *.
  assert (I' : ins ((a', y') :: L) = a' * ins L) by reflexivity. rewrite I'. set (i := ins L).
  destruct K as [(-> & ->) | (-> & ->)].
  - rewrite !Z.eqb_refl. ring.
  - assert (X : (y' * d + e) * (if 1 * 1 =? y * y' then i else 0) = 0).
    { destruct (Z.eqb_spec (1 * 1) (y * y')) as [Q1 |]; [| ring]. assert (y = 1) by nia. assert (y' = 1) by nia. replace d with 0 by lia. replace e with 0 by lia. ring. }
    assert (Y : d * (if 1 =? y then 1 * i else 0) = 0) by (destruct (Z.eqb_spec 1 y); [replace d with 0 by lia; ring | ring]).
    assert (W : e * (if 1 =? y' then i else 0) = 0) by (destruct (Z.eqb_spec 1 y'); [replace e with 0 by lia; ring | ring]).
    rewrite X, Y, W. ring.
Qed.
Lemma reach_one L r : extents L -> reach ((1, 1) :: L) r = reach L r.
Proof. intros E. cbn [reach]. rewrite Z.mod_1_r. lia. Qed.

(** The axes of one input, told apart by [p]. *)
Fixpoint zip3 (s0 s1 : list Z) : list (Z * Z * Z) := match s0, s1 with m :: s0, n :: s1 => (m, n, Z.max m n) :: zip3 s0 s1 | _, _ => [] end.
Definition good (a : Z * Z * Z) : Prop := let '(m, n, y) := a in 0 < y /\ ((m = y /\ n = y) \/ (m = 1 /\ n = y) \/ (m = y /\ n = 1)).
Definition side (p : bool) (a : Z * Z * Z) : Z * Z := let '(m, n, y) := a in (if p then n else m, y).
Lemma good_side p L : Forall good L -> extents (map (side p) L).
Proof. unfold extents. rewrite Forall_map. apply Forall_impl. intros ((m & n) & y). cbn. destruct p; intuition lia. Qed.
(** The pending product merges with the next axis. *)
Definition fits (t a : Z * Z * Z) : Prop :=
  let '(t0, t1, ty) := t in let '(m, n, y) := a in
  0 < ty /\ ((t0 = ty /\ m = y /\ t1 = ty /\ n = y) \/ (t0 = 1 /\ m = 1 /\ t1 = ty /\ n = y /\ y <> 1) \/ (t0 = ty /\ m = y /\ t1 = 1 /\ n = 1 /\ y <> 1)).
Lemma good_fits_one a : good a -> fits (1, 1, 1) a.
Proof. destruct a as ((m & n) & y). cbn. intuition lia. Qed.
Definition big (L : list (Z * Z * Z)) : Z := size (map snd L).
Lemma side_outs p L : outs (map (side p) L) = big L.
Proof. unfold outs, big. rewrite map_map. f_equal. apply map_ext. intros ((m & n) & y). reflexivity. Qed.
Lemma same_case_fits m n m' n' t : same_case m n m' n' = true -> good (m, n, Z.max m n) -> good (m', n', Z.max m' n') -> fits t (m, n, Z.max m n) ->
  fits (let '(t0, t1, ty) := t in (t0 * m, t1 * n, ty * Z.max m n)) (m', n', Z.max m' n').
Proof.
  destruct t as ((t0 & t1) & ty). unfold same_case. intros S G G' F. cbn in G, G', F |- *.
  apply orb_true_iff in S. rewrite orb_true_iff in S. rewrite !andb_true_iff, !negb_true_iff, !Z.eqb_eq, !Z.eqb_neq in S.
  destruct F as (P & F). split; [nia |].
  destruct S as [[(E & E') | ((E & N) & (E' & N'))] | ((N & E) & (N' & E'))].
  - left. subst n n'. rewrite !Z.max_id in *. destruct F as [(-> & _ & -> & _) | [F | F]]; [auto | lia | lia].
  - right; left. subst m m'. destruct F as [F | [(-> & _ & -> & _) | F]]; lia.
  - right; right. subst n n'. destruct F as [F | [F | (-> & _ & -> & _)]]; lia.
Qed.
Lemma compress_big s0 : forall s1 t0 t1 ty, length s0 = length s1 -> s0 <> [] -> big (compress s0 s1 t0 t1 ty) = ty * big (zip3 s0 s1).
Proof.
  induction s0 as [| m s0 IH]; intros [| n s1] t0 t1 ty L NE; try discriminate; [congruence |]. cbn [compress zip3]. cbv zeta. injection L as L.
  destruct s0 as [| m' s0], s1 as [| n' s1]; try discriminate.
  - unfold big. cbn. lia.
  - destruct (same_case m n m' n').
    + rewrite IH by (try assumption; discriminate). unfold big. cbn [map size snd]. ring.
    + unfold big in *. cbn [map size snd]. rewrite IH by (try assumption; discriminate). cbn [map size snd]. ring.
Qed.
Lemma compress_good s0 : forall s1 t0 t1 ty, length s0 = length s1 -> Forall good (zip3 s0 s1) -> match zip3 s0 s1 with [] => True | a :: _ => fits (t0, t1, ty) a end -> Forall good (compress s0 s1 t0 t1 ty).
Proof.
  induction s0 as [| m s0 IH]; intros [| n s1] t0 t1 ty L G F; try discriminate; [constructor |]. cbn [compress]. cbv zeta. injection L as L. cbn [zip3] in G, F.
  inversion G as [| ? ? G1 G2]; subst.
  assert (GG : good (t0 * m, t1 * n, ty * Z.max m n)).
  { cbn in F, G1 |- *. destruct F as (P & F). destruct G1 as (PY & _). split; [nia |]. destruct F as [(-> & A & -> & B) | [(-> & A & -> & B & _) | (-> & A & -> & B & _)]]; rewrite <- ?A, <- ?B.
    - left. split; f_equal; lia.
    - right; left. split; [lia | f_equal; lia].
    - right; right. split; [f_equal; lia | lia]. }
  destruct s0 as [| m' s0], s1 as [| n' s1]; try discriminate.
  - constructor; [exact GG | constructor].
  - cbn [zip3] in G2. inversion G2 as [| ? ? G3 G4]; subst. destruct (same_case m n m' n') eqn:SC.
    + apply IH; [exact L | exact G2 |]. cbn [zip3]. apply (same_case_fits m n m' n' (t0, t1, ty)); assumption.
    + constructor; [exact GG |]. apply IH; [exact L | exact G2 |]. cbn [zip3]. apply good_fits_one. exact G3.
Qed.

Lemma compress_ins p s0 : forall s1 t0 t1 ty, length s0 = length s1 -> s0 <> [] -> ins (map (side p) (compress s0 s1 t0 t1 ty)) = (if p then t1 else t0) * ins (map (side p) (zip3 s0 s1)).
Proof.
  induction s0 as [| m s0 IH]; intros [| n s1] t0 t1 ty L NE; try discriminate; [congruence |]. cbn [compress zip3]. cbv zeta. injection L as L.
  destruct s0 as [| m' s0], s1 as [| n' s1]; try discriminate.
  - unfold ins. cbn. destruct p; lia.
  - destruct (same_case m n m' n').
    + rewrite IH by (try assumption; discriminate). unfold ins. cbn [zip3 map side size fst]. destruct p; ring.
    + unfold ins in *. cbn [map side size fst]. rewrite IH by (try assumption; discriminate). cbn [zip3 map side size fst]. destruct p; ring.
Qed.
Lemma reach_tail a y L L' r : outs L = outs L' -> ins L = ins L' -> reach L r = reach L' r -> reach ((a, y) :: L) r = reach ((a, y) :: L') r.
Proof. intros O I R. cbn [reach]. rewrite O, I, R. reflexivity. Qed.
Lemma compress_reach p s0 : forall s1 t0 t1 ty, length s0 = length s1 -> s0 <> [] -> Forall good (zip3 s0 s1) -> match zip3 s0 s1 with [] => True | a :: _ => fits (t0, t1, ty) a end ->
  forall r, 0 <= r < ty * big (zip3 s0 s1) -> reach (map (side p) (compress s0 s1 t0 t1 ty)) r = reach (side p (t0, t1, ty) :: map (side p) (zip3 s0 s1)) r.
Proof.
  induction s0 as [| m s0 IH]; intros [| n s1] t0 t1 ty L NE G F r Hr; try discriminate; [congruence |]. cbn [compress]. cbv zeta. injection L as L. cbn [zip3] in G, F, Hr |- *.
  inversion G as [| ? ? G1 G2]; subst.
  assert (K : (if p then t1 else t0) = ty /\ (if p then n else m) = Z.max m n \/ (if p then t1 else t0) = 1 /\ (if p then n else m) = 1).
  { cbn in F. destruct F as (P & F). destruct p; destruct F as [F | [F | F]]; intuition. }
  assert (Py : 0 < ty) by (cbn in F; tauto). assert (PY : 0 < Z.max m n) by (cbn in G1; tauto).
  assert (HB : big ((m, n, Z.max m n) :: zip3 s0 s1) = Z.max m n * big (zip3 s0 s1)) by reflexivity.
  assert (M : reach (side p (t0 * m, t1 * n, ty * Z.max m n) :: map (side p) (zip3 s0 s1)) r = reach (side p (t0, t1, ty) :: map (side p) ((m, n, Z.max m n) :: zip3 s0 s1)) r).
  { cbn [map side]. rewrite <- reach_merge; [destruct p; reflexivity | assumption | assumption | exact K | apply good_side; exact G2 |]. rewrite side_outs. rewrite HB in Hr. lia. }
  destruct s0 as [| m' s0], s1 as [| n' s1]; try discriminate.
  - exact M.
  - assert (NE' : m' :: s0 <> []) by discriminate. destruct (same_case m n m' n') eqn:SC.
    + rewrite IH; [exact M | exact L | exact NE' | exact G2 | | rewrite HB in Hr; lia]. cbn [zip3].
      inversion G2 as [| ? ? G3 G4]; subst. apply (same_case_fits m n m' n' (t0, t1, ty)); assumption.
    + rewrite <- M. cbn [map]. cbn [side]. assert (EG : extents (map (side p) (zip3 (m' :: s0) (n' :: s1)))) by (apply good_side; exact G2).
      assert (OC : outs (map (side p) (compress (m' :: s0) (n' :: s1) 1 1 1)) = outs (map (side p) (zip3 (m' :: s0) (n' :: s1)))) by (rewrite !side_outs; rewrite compress_big by assumption; ring).
      assert (F' : match zip3 (m' :: s0) (n' :: s1) with [] => True | a :: _ => fits (1, 1, 1) a end) by (cbn [zip3]; inversion G2 as [| ? ? G3 G4]; subst; apply good_fits_one; exact G3).
      apply reach_tail; [exact OC | rewrite compress_ins by assumption; destruct p; ring |].
      (* the index of the axes behind *)
      set (b := big (zip3 (m' :: s0) (n' :: s1))) in *.
      assert (Pb : 0 < b) by (unfold b; rewrite <- (side_outs p); apply extents_outs; exact EG).
      assert (EC : extents (map (side p) (compress (m' :: s0) (n' :: s1) 1 1 1))) by (apply good_side; apply compress_good; assumption).
      assert (DM := Z.div_mod r b ltac:(lia)). assert (Q := Z.mod_pos_bound r b ltac:(lia)).
      replace r with (r / b * outs (map (side p) (compress (m' :: s0) (n' :: s1) 1 1 1)) + r mod b) at 1 by (rewrite OC, side_outs; fold b; lia).
      rewrite reach_mod by (try assumption; rewrite OC, side_outs; exact Q).
      replace r with (r / b * outs (map (side p) (zip3 (m' :: s0) (n' :: s1))) + r mod b) at 2 by (rewrite side_outs; fold b; lia).
      rewrite reach_mod by (try assumption; rewrite side_outs; exact Q).
      rewrite IH; [| exact L | exact NE' | exact G2 | exact F' | fold b; lia]. cbn [side]. destruct p; apply reach_one; exact EG.
Qed.
