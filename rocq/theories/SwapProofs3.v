(** Proofs about SwapModel: what holds while a schedule is made. *)
From Coq Require Import List ZArith Bool Arith Lia.
From Verif Require Import SwapModel SwapSpec SwapProofs1 SwapProofs2.
Import ListNotations.
Local Open Scope list_scope.
Local Open Scope Z_scope.

Section events.
Variables (order : list record) (ends : list nat).
Notation at_ := (at_ order).
Notation act := (act order).
Notation through := (through order ends).
Notation sofar := (sofar order ends).
Notation now := (after order (at_start order ends)).
Notation play s l a := (fold_left (fun p h => act s h p) l a).

(** The events of one array. *)
Definition of_array (s : nat) (l : list event) : list event := filter (fun ev => Nat.eqb (said (at_ (snd ev))) s) l.
Lemma of_array_app s l l' : of_array s (l ++ l') = of_array s l ++ of_array s l'.
Proof. apply filter_app. Qed.
Lemma of_array_other s ev : said (at_ (snd ev)) <> s -> of_array s [ev] = [].
Proof. intros N. cbn. destruct (Nat.eqb_spec (said (at_ (snd ev))) s); [contradiction | reflexivity]. Qed.
Lemma of_array_self ev : of_array (said (at_ (snd ev))) [ev] = [ev].
Proof. cbn. rewrite Nat.eqb_refl. reflexivity. Qed.
Lemma of_array_nil s l : of_array s l = [] <-> forall ev, List.In ev l -> said (at_ (snd ev)) <> s.
Proof.
  unfold of_array. split.
  - intros E ev I S. assert (List.In ev []) as []. rewrite <- E. apply filter_In. split; [exact I | apply Nat.eqb_eq; exact S].
  - intros H. induction l as [| x l IH]; [reflexivity |]. cbn [filter]. destruct (Nat.eqb_spec (said (at_ (snd x))) s) as [E |]; [destruct (H x (or_introl eq_refl) E) |]. apply IH. intros; apply H; right; assumption.
Qed.
Lemma of_array_split s (l l1 : list event) (x : event) : of_array s l = l1 ++ [x] -> exists m1 m2, l = m1 ++ x :: m2 /\ of_array s m1 = l1 /\ of_array s m2 = [].
Proof.
  induction l as [| y l IH] using rev_ind; intros E; [destruct l1; discriminate |]. rewrite of_array_app in E. destruct (Nat.eqb_spec (said (at_ (snd y))) s) as [S | S].
  - subst s. rewrite of_array_self in E. apply app_inj_tail in E as (E & <-). exists l, []. auto.
  - rewrite of_array_other, app_nil_r in E by exact S. destruct (IH E) as (m1 & m2 & -> & A & B). exists m1, (m2 ++ [y]). split; [rewrite <- app_assoc; reflexivity | split; [exact A |]]. rewrite of_array_app, B. apply of_array_other. exact S.
Qed.
Lemma play_events s l a : play s (map Planned l) a = play s (map Planned (of_array s l)) a.
Proof.
  revert a. induction l as [| (t, i) l IH]; intros a; [reflexivity |]. cbn [map fold_left of_array filter snd]. destruct (Nat.eqb_spec (said (at_ i)) s) as [S | S]; [apply IH |]. rewrite other_act by exact S. apply IH.
Qed.
Lemma play_app s a b x : play s (a ++ b) x = play s b (play s a x).
Proof. apply fold_left_app. Qed.
Lemma now_app a b s : now (a ++ b) s = play s b (now a s).
Proof. apply after_app. Qed.
Lemma through_of_array b e b' e' s h : (forall k, (k <= h)%nat -> of_array s (b k) = of_array s (b' k)) -> (forall k, (k < h)%nat -> of_array s (e k) = of_array s (e' k)) -> now (through b e h) s = now (through b' e' h) s.
Proof.
  induction h as [| h IH]; intros B E; [reflexivity |]. cbn [SwapSpec.through]. rewrite !now_app, !play_app.
  rewrite (play_events s (e h)), (play_events s (e' h)), (play_events s (b (S h))), (play_events s (b' (S h))), (B (S h)), (E h), IH; auto.
Qed.
Lemma sofar_of_array b e b' e' s g : (forall k, of_array s (b k) = of_array s (b' k)) -> (forall k, of_array s (e k) = of_array s (e' k)) -> now (sofar b e g) s = now (sofar b' e' g) s.
Proof.
  intros B E. unfold SwapProofs2.sofar. rewrite !now_app. rewrite !play_app.
  rewrite (play_events s (e g)), (play_events s (e' g)), (play_events s (b (S g))), (play_events s (b' (S g))), (B (S g)), (E g), (through_of_array b e b' e'); auto.
Qed.
Lemma push_of_array s (m : nat -> list event) h ev : said (at_ (snd ev)) <> s -> forall k, of_array s (push m h ev k) = of_array s (m k).
Proof. intros N k. unfold push, set. destruct (Nat.eqb_spec k h) as [-> |]; [| reflexivity]. rewrite of_array_app, of_array_other, app_nil_r by exact N. reflexivity. Qed.

(** The last event of [s] is a swap out, nothing uses [s] after it, and (if [strict]) [s] was not leaving. *)
Definition out_at (strict : Prop) (s g : nat) (b e : nat -> list event) : Prop := exists h k l1,
  (h <= g)%nat /\ (h < length ends)%nat /\ said (at_ k) = s /\ of_array s (e h) = l1 ++ [((SwapOut, k) : event)] /\
  (forall k, (h < k)%nat -> of_array s (b k) = [] /\ of_array s (e k) = []) /\
  (forall k i, (h < k <= g)%nat -> List.In i (accesses ends k) -> uses order s i = false) /\
  (strict -> play s (map Planned l1) (now (through b e h) s) <> Leaving).
Lemma out_at_ext (strict : Prop) s g b e b' e' : (forall k, of_array s (b k) = of_array s (b' k)) -> (forall k, of_array s (e k) = of_array s (e' k)) -> out_at strict s g b e -> out_at strict s g b' e'.
Proof.
  intros B E (h & k & l1 & H1 & H2 & H3 & H4 & H5 & H6 & H7). exists h, k, l1. split; [exact H1 | split; [exact H2 | split; [exact H3 | split; [rewrite <- E; exact H4 | split; [| split; [exact H6 |]]]]]].
  - intros k' K. rewrite <- B, <- E. apply H5. exact K.
  - intros St. rewrite <- (through_of_array b e b' e') by auto. apply H7. exact St.
Qed.
Lemma erase_none s l : of_array s l = [] -> erase_first order s (rev l) = None.
Proof.
  intros N. assert (N' : of_array s (rev l) = []) by (apply of_array_nil; intros ev I; rewrite of_array_nil in N; apply N; apply in_rev; exact I). clear N. induction (rev l) as [| (t, i) m IH]; [reflexivity |]. cbn [erase_first]. cbn [of_array filter snd] in N'.
  destruct (Nat.eqb (said (at_ i)) s); [discriminate |]. cbn [andb]. rewrite IH by exact N'. reflexivity.
Qed.
Lemma erase_past s k (m n : list event) : said (at_ k) = s -> of_array s m = [] -> erase_first order s (m ++ (SwapOut, k) :: n) = Some (m ++ n).
Proof.
  intros K N. induction m as [| (t, i) m IH].
  - cbn [app erase_first]. rewrite K, Nat.eqb_refl. reflexivity.
  - cbn [app erase_first]. cbn [of_array filter snd] in N. destruct (Nat.eqb (said (at_ i)) s); [discriminate |]. cbn [andb]. rewrite IH by exact N. reflexivity.
Qed.
Lemma erase_some s (m1 : list event) k (m2 : list event) : said (at_ k) = s -> of_array s m2 = [] -> erase_first order s (rev (m1 ++ (SwapOut, k) :: m2)) = Some (rev (m1 ++ m2)).
Proof.
  intros K N. replace (m1 ++ (SwapOut, k) :: m2) with ((m1 ++ [(SwapOut, k)]) ++ m2) by (rewrite <- app_assoc; reflexivity). rewrite !rev_app_distr. cbn [rev app].
  apply erase_past; [exact K |]. apply of_array_nil; intros ev I; rewrite of_array_nil in N; apply N; apply in_rev; exact I.
Qed.
Lemma cancel_at s (m : nat -> list event) h (m1 : list event) k (m2 : list event) n : (h < n)%nat -> said (at_ k) = s -> m h = m1 ++ (SwapOut, k) :: m2 -> of_array s m2 = [] -> (forall k', (h < k')%nat -> of_array s (m k') = []) -> cancel_in order n s m = set m h (m1 ++ m2).
Proof.
  intros L K E N N'. induction n as [| n IH]; [lia |]. cbn [cancel_in]. destruct (Nat.eq_dec n h) as [-> | D].
  - rewrite E, (erase_some s m1 k m2 K N), rev_involutive. reflexivity.
  - rewrite erase_none by (apply N'; lia). apply IH. lia.
Qed.
End events.

Section plan.
Variables (order : list record) (ends : list nat) (sizeof : nat -> Z) (max_bytes max_prefetch : Z) (cast_prefetch : bool) (head0 : nat -> option nat).
Variables (ty : nat -> nat) (weight : nat -> Z) (strict : Prop).
Notation at_ := (at_ order).
Notation sofar := (sofar order ends).
Notation now := (after order (at_start order ends)).
Notation fine := (fine order ends weight max_bytes strict).
Notation block_end := (block_end ends).
Notation block_start := (block_start ends).
Notation L := (arrays order).
Notation uses := (uses order).
Notation used := (used order).
Notation queue := (queue order).
Notation of_array := (of_array order).
Notation bytes := (bytes sizeof).
Notation memory := (memory order weight).

Definition st (p : params) (s : nat) : astate := states p s (ty s).
Definition tr (p : params) (g : nat) : list happening := sofar (begins p) (finals p) g.
Definition sum (p : params) (b : stag -> bool) : Z := total (fun s => if b (state (st p s)) then weight s else 0) L.
Definition is_pre (t : stag) : bool := match t with In | Unprefetched => true | _ => false end.
Definition fresh (s pos : nat) : Prop := forall j, first_use order s pos j -> no_data_transfer (at_ j) = true.
(** The place of an array and its state in the scheduler. *)
Definition rel (s pos : nat) (t : stag) (a : place) : Prop :=
  match t with
  | Cleared | OutWaited => a = Absent
  | Unprefetched => a = Absent /\ (strict -> fresh s pos)
  | Out => a <> Resident /\ (strict -> a = Leaving \/ fresh s pos)
  | In => strict -> a = Resident \/ (a = Absent /\ fresh s pos)
  | OutCleared => False
  end.
(** Arrays whose type is that of their head. *)
Definition known (g : nat) (p : params) (s : nat) : Prop := fst (heads p s) = true \/ exists i, (i < block_end g)%nat /\ uses s i = true.
Record inv (q g pos : nat) (p : params) : Prop := {
  i_other : forall s d, ~ (used s /\ d = ty s) -> state (states p s d) = Cleared;
  i_count : forall s, used s -> count (st p s) = queue s q (head p);
  i_pos : forall s, used s -> (0 < queue s q (head p) <-> is_pre (state (st p s)) = true);
  i_ins : ins p = sum p is_In;
  i_outs : outs p = sum p is_Out;
  i_pre : prefetched p = sum p is_pre;
  i_max : ins p + outs p <= max_bytes;
  i_swapped : forall s, used s -> state (st p s) = Out -> exists k, swapped (st p s) = Some k /\ (tail p <= k < q)%nat /\ is_clear (at_ k) = false /\ said (at_ k) = s;
  i_tail : (tail p <= q)%nat;
  i_head : (q <= head p <= length order)%nat;
  i_heads : forall s, used s -> known g p s -> snd (heads p s) = ty s;
  i_fine : fine (tr p g);
  i_rel : forall s, used s -> rel s pos (state (st p s)) (now (tr p g) s);
  i_out : forall s, used s -> state (st p s) = Out -> out_at order ends strict s g (begins p) (finals p);
  i_begins : forall k, (S g < k)%nat -> begins p k = [];
  i_finals : forall k, (g < k)%nat -> finals p k = [] }.

Hypothesis TY : forall r, List.In r order -> is_clear r = false -> dtype r = ty (said r).
Hypothesis WT : forall r, List.In r order -> is_clear r = false -> bytes r (dtype r) = weight (said r).
Hypothesis WN : forall s, 0 <= weight s.

Lemma sum_change p p' b s : used s -> (forall s', s' <> s -> st p' s' = st p s') -> sum p' b = sum p b - (if b (state (st p s)) then weight s else 0) + (if b (state (st p' s)) then weight s else 0).
Proof. intros U H. unfold sum. apply (total_change (fun s => if b (state (st p s)) then weight s else 0)); [apply arrays_nodup | apply arrays_in; exact U |]. intros x N. rewrite (H x N). reflexivity. Qed.
Lemma memory_bound p pos (a : nat -> place) : (forall s, used s -> rel s pos (state (st p s)) (a s)) -> memory a <= sum p is_In + sum p is_Out.
Proof using WN.
  intros R. rewrite memory_total. unfold sum. rewrite <- total_plus. apply total_le. intros s I. apply arrays_in in I. specialize (R s I). specialize (WN s). unfold rel in R.
  destruct (state (st p s)); cbn [is_In is_Out]; try (rewrite R); try (destruct R as (R & _); rewrite ?R); try contradiction; destruct (occupied (a s)); cbn [occupied]; lia.
Qed.
Lemma bytes_one p i b : is_clear (at_ i) = false -> bytes_in order sizeof (states p) (at_ i) b = (if b (state (st p (said (at_ i)))) then weight (said (at_ i)) else 0).
Proof using TY WT.
  intros C. unfold bytes_in. rewrite (total_one order ty TY) by (apply used_at; exact C). unfold st. destruct (b _); [| reflexivity].
  rewrite <- (ty_at order ty TY i C). apply (wt_at order sizeof weight WT i C).
Qed.
Lemma counts_one p s : used s -> accumulate_counts order (states p) s = count (st p s).
Proof using TY. intros U. unfold accumulate_counts. rewrite (total_one order ty TY) by exact U. reflexivity. Qed.

(** One array and its place change. *)
Lemma inv_step q g pos p q' p' s : inv q g pos p -> used s ->
  (forall s' d, s' <> s -> states p' s' d = states p s' d) ->
  (forall d, d <> ty s -> state (states p' s d) = Cleared) ->
  (forall s', s' <> s -> queue s' q' (head p') = queue s' q (head p)) ->
  count (st p' s) = queue s q' (head p') ->
  (0 < queue s q' (head p') <-> is_pre (state (st p' s)) = true) ->
  ins p' = ins p - (if is_In (state (st p s)) then weight s else 0) + (if is_In (state (st p' s)) then weight s else 0) ->
  outs p' = outs p - (if is_Out (state (st p s)) then weight s else 0) + (if is_Out (state (st p' s)) then weight s else 0) ->
  prefetched p' = prefetched p - (if is_pre (state (st p s)) then weight s else 0) + (if is_pre (state (st p' s)) then weight s else 0) ->
  ins p' + outs p' <= max_bytes ->
  (state (st p' s) = Out -> exists k, swapped (st p' s) = Some k /\ (tail p' <= k < q')%nat /\ is_clear (at_ k) = false /\ said (at_ k) = s) ->
  (forall k, said (at_ k) <> s -> (tail p <= k)%nat -> (tail p' <= k)%nat) ->
  (tail p' <= q')%nat -> (q <= q')%nat -> (q' <= head p' <= length order)%nat ->
  (forall s', used s' -> known g p' s' -> snd (heads p' s') = ty s') ->
  (forall s' k, s' <> s -> of_array s' (begins p' k) = of_array s' (begins p k)) ->
  (forall s' k, s' <> s -> of_array s' (finals p' k) = of_array s' (finals p k)) ->
  fine (tr p' g) \/ (exists ev, tr p' g = tr p g ++ [Planned ev]) ->
  rel s pos (state (st p' s)) (now (tr p' g) s) ->
  (state (st p' s) = Out -> out_at order ends strict s g (begins p') (finals p')) ->
  (forall k, (S g < k)%nat -> begins p' k = []) -> (forall k, (g < k)%nat -> finals p' k = []) ->
  inv q' g pos p'.
Proof using WN.
  intros I U H1 H2 H3 H4 H5 H6 H7 H8 H9 H10 H11 H12 H13 H14 H15 H16 H17 H18 H19 H20 H21 H22.
  assert (O : forall s', s' <> s -> st p' s' = st p s') by (intros s' N; apply H1; exact N).
  assert (SU : forall b, sum p' b = sum p b - (if b (state (st p s)) then weight s else 0) + (if b (state (st p' s)) then weight s else 0)) by (intros b; apply sum_change; assumption).
  assert (R : forall s', used s' -> rel s' pos (state (st p' s')) (now (tr p' g) s')).
  { intros s' U'. destruct (Nat.eq_dec s' s) as [-> | N]; [exact H19 |]. rewrite (O s' N). unfold tr. rewrite (sofar_of_array order ends (begins p') (finals p') (begins p) (finals p)); [apply (i_rel _ _ _ _ I); exact U' | intros k; apply H16; exact N | intros k; apply H17; exact N]. }
  assert (Ins : ins p' = sum p' is_In) by (rewrite SU, <- (i_ins _ _ _ _ I); exact H6).
  assert (Outs : outs p' = sum p' is_Out) by (rewrite SU, <- (i_outs _ _ _ _ I); exact H7).
  constructor; try assumption.
  - intros s' d D. destruct (Nat.eq_dec s' s) as [-> | N]; [apply H2; intros ->; apply D; auto |]. rewrite (H1 s' d N). apply (i_other _ _ _ _ I); assumption.
  - intros s' U'. destruct (Nat.eq_dec s' s) as [-> | N]; [exact H4 |]. rewrite (O s' N), (H3 s' N). apply (i_count _ _ _ _ I); assumption.
  - intros s' U'. destruct (Nat.eq_dec s' s) as [-> | N]; [exact H5 |]. rewrite (O s' N), (H3 s' N). apply (i_pos _ _ _ _ I); assumption.
  - rewrite SU, <- (i_pre _ _ _ _ I). exact H8.
  - intros s' U' E. destruct (Nat.eq_dec s' s) as [-> | N]; [apply H10; exact E |]. rewrite (O s' N) in *. destruct (i_swapped _ _ _ _ I s' U' E) as (k & K1 & K2 & K3 & K4). exists k. split; [exact K1 | split; [| auto]]. split; [| lia]. apply H11; [congruence | lia].
  - destruct H18 as [F | (ev & E)]; [exact F |]. rewrite E. apply fine_snoc; [apply (i_fine _ _ _ _ I) | | intros i X; discriminate]. rewrite <- E. rewrite Ins, Outs in H9. pose proof (memory_bound p' pos _ R). lia.
  - intros s' U' E. destruct (Nat.eq_dec s' s) as [-> | N]; [apply H20; exact E |]. rewrite (O s' N) in E. apply (out_at_ext order ends strict s' g (begins p) (finals p)); [intros k; symmetry; apply H16; exact N | intros k; symmetry; apply H17; exact N | apply (i_out _ _ _ _ I); assumption].
Qed.
End plan.
