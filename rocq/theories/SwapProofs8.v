(** Proofs about SwapModel: clearing in advance, and the part of a round after the function. *)
From Coq Require Import List ZArith Bool Arith Lia.
From Verif Require Import SwapModel SwapSpec SwapProofs1 SwapProofs2 SwapProofs3 SwapProofs4 SwapProofs5 SwapProofs6 SwapProofs7.
Import ListNotations.
Local Open Scope list_scope.
Local Open Scope Z_scope.

Section plan.
Variables (order : list record) (ends : list nat) (sizeof : nat -> Z) (max_bytes : Z).
Variables (ty : nat -> nat) (weight : nat -> Z) (strict : Prop).
Notation at_ := (at_ order).
Notation sofar := (sofar order ends).
Notation now := (after order (at_start order ends)).
Notation fine := (fine order ends weight max_bytes strict).
Notation block_end := (block_end ends).
Notation block_start := (block_start ends).
Notation L := (arrays order).
Notation uses := (uses order).
Notation used := (used order).
Notation queue := (queue order).
Notation of_array := (of_array order).
Notation bytes := (bytes sizeof).
Notation st := (st ty).
Notation tr := (tr order ends).
Notation inv := (inv order ends max_bytes ty weight strict).
Notation rel := (rel order strict).
Notation fresh := (fresh order).
Notation sum := (sum order ty weight).

Hypothesis TY : forall r, List.In r order -> is_clear r = false -> dtype r = ty (said r).
Hypothesis WT : forall r, List.In r order -> is_clear r = false -> bytes r (dtype r) = weight (said r).
Hypothesis WN : forall s, 0 <= weight s.
Notation body := (body order ends).
Notation block := (block ends).

(** * Clearing in advance *)
Definition next_clear (s j g : nat) : Prop := exists c, (j <= c)%nat /\ List.In c (block g) /\ is_clear (at_ c) = true /\ said (at_ c) = s /\ forall k, (j <= k < c)%nat -> said (at_ k) <> s.
Definition trace_ok (j : nat) (trace : nat -> option nat) : Prop := forall s g, trace s = Some g -> next_clear s j g.
Definition ends_clear (s f j : nat) : Prop := exists c, (j <= c < block_end f)%nat /\ is_clear (at_ c) = true /\ said (at_ c) = s /\ forall k, (c < k < block_end f)%nat -> said (at_ k) <> s.
Definition last_ok (f j : nat) (last : nat -> option bool) : Prop := forall s, (last s = None -> forall k, (j <= k < block_end f)%nat -> said (at_ k) <> s) /\ (last s = Some true -> ends_clear s f j).
Definition info_ok (f : nat) (info : list (nat * bool)) : Prop := forall i b, List.In (i, b) info -> List.In i (block f) /\ is_clear (at_ i) = false /\
  if b then exists g, (f < g)%nat /\ next_clear (said (at_ i)) (S i) g else ends_clear (said (at_ i)) f (block_start f).
Lemma trace_step j trace s o : trace_ok (S j) trace -> said (at_ j) = s -> (forall g, o = Some g -> next_clear s j g) -> trace_ok j (set trace s o).
Proof.
  intros T E O s' g X. unfold set in X. destruct (Nat.eqb_spec s' s) as [-> | N]; [apply O; exact X |]. destruct (T s' g X) as (c & C1 & C2 & C3 & C4 & C5). exists c. split; [lia | split; [exact C2 | split; [exact C3 | split; [exact C4 |]]]].
  intros k K. destruct (Nat.eq_dec k j) as [-> | NK]; [congruence | apply C5; lia].
Qed.
Lemma trace_keep j trace : trace_ok (S j) trace -> trace (said (at_ j)) = None -> trace_ok j trace.
Proof.
  intros T E s g X. assert (N : s <> said (at_ j)) by congruence. destruct (T s g X) as (c & C1 & C2 & C3 & C4 & C5). exists c. split; [lia | split; [exact C2 | split; [exact C3 | split; [exact C4 |]]]].
  intros k K. destruct (Nat.eq_dec k j) as [-> | NK]; [congruence | apply C5; lia].
Qed.
Lemma last_step f j last : (j < block_end f)%nat -> last_ok f (S j) last -> last_ok f j (match last (said (at_ j)) with None => set last (said (at_ j)) (Some (is_clear (at_ j))) | _ => last end).
Proof.
  intros J LO. set (s := said (at_ j)). destruct (last s) as [b |] eqn:E.
  - intros s'. destruct (LO s') as (X & Y). split.
    + intros N k K. assert (s' <> s) by congruence. destruct (Nat.eq_dec k j) as [-> | NK]; [fold s; congruence | apply X; [exact N | lia]].
    + intros T. destruct (Y T) as (c & C1 & C2). exists c. split; [lia | exact C2].
  - intros s'. unfold set. destruct (Nat.eqb_spec s' s) as [-> | N].
    + split; [discriminate |]. intros T. injection T as T. exists j. split; [lia | split; [exact T | split; [reflexivity |]]]. intros k K. apply (proj1 (LO s) E). lia.
    + destruct (LO s') as (X & Y). split.
      * intros Z0 k K. destruct (Nat.eq_dec k j) as [-> | NK]; [fold s; congruence | apply X; [exact Z0 | lia]].
      * intros T. destruct (Y T) as (c & C1 & C2). exists c. split; [lia | exact C2].
Qed.
Lemma preclear_block_ok f a n : forall trace last info, (block_start f <= a)%nat -> (a + n <= block_end f)%nat -> trace_ok (a + n) trace -> last_ok f (a + n) last -> info_ok f info ->
  let '(info', trace') := preclear_block order f (rev (seq a n)) trace last info in info_ok f info' /\ trace_ok a trace'.
Proof.
  induction n as [| n IH]; intros trace last info B L1 T LO IO; [cbn; rewrite Nat.add_0_r in T; auto |]. rewrite seq_S, rev_app_distr. cbn [rev app preclear_block]. replace (a + S n)%nat with (S (a + n)) in * by lia. set (j := (a + n)%nat) in *.
  pose proof (last_step f j last ltac:(lia) LO) as LS. assert (JB : List.In j (block f)) by (apply in_block; lia).
  destruct (is_clear (at_ j)) eqn:C.
  - apply IH; try assumption; [lia |].
    apply trace_step; [exact T | reflexivity |]. intros g E. injection E as <-. exists j. split; [fold j; lia | split; [exact JB | split; [exact C | split; [reflexivity |]]]]. intros; lia.
  - assert (LS' : last_ok f j (match last (said (at_ j)) with None => set last (said (at_ j)) (Some false) | Some _ => last end)) by (destruct (last (said (at_ j))); exact LS).
    set (last' := match last (said (at_ j)) with None => _ | Some _ => last end) in *. destruct (trace (said (at_ j))) as [g |] eqn:E.
    + apply IH; try assumption; [lia | apply trace_step; [exact T | reflexivity | discriminate] |]. destruct (Nat.ltb_spec f g) as [X | X].
      * intros i b I. apply in_app_iff in I as [I | [I | []]]; [apply IO; exact I |]. injection I as <- <-. split; [exact JB | split; [exact C |]]. exists g. split; [exact X | apply T; exact E].
      * destruct (last' (said (at_ j))) as [[|] |] eqn:LE; try exact IO. intros i b I. apply in_app_iff in I as [I | [I | []]]; [apply IO; exact I |]. injection I as <- <-. split; [exact JB | split; [exact C |]].
        destruct (proj2 (LS' (said (at_ j))) LE) as (c & C1 & C2). exists c. split; [lia | exact C2].
    + apply IH; try assumption; [lia |]. apply trace_keep; assumption.
Qed.
Hypothesis BL : forall f, (S f < length ends)%nat -> (block_end f <= block_end (S f))%nat.
Definition infos_ok (acc : nat -> list (nat * bool)) : Prop := forall f, info_ok f (acc f) /\ (acc f <> [] -> (2 <= f < length ends)%nat).
Lemma preclear_blocks_ok n : forall f trace acc info, (f < length ends)%nat -> trace_ok (block_end f) trace -> infos_ok acc -> preclear_blocks order ends n f trace acc = Some info -> infos_ok info.
Proof using BL.
  induction n as [| n IH]; intros f trace acc info LF T IO E; cbn [preclear_blocks] in E; [injection E as <-; exact IO |]. destruct (Nat.ltb_spec 1 f) as [X | X]; [| injection E as <-; exact IO].
  destruct (Nat.eqb (block_start f) 0); [discriminate |]. assert (LE : (block_start f <= block_end f)%nat) by (destruct f as [| f]; [lia |]; apply BL; lia).
  pose proof (preclear_block_ok f (block_start f) (block_end f - block_start f) trace (fun _ => None) []) as PB. fold (block f) in PB. destruct (preclear_block _ _ _ _ _ _) as (info1, trace1). replace (block_start f + (block_end f - block_start f))%nat with (block_end f) in PB by lia.
  destruct PB as (P1 & P2); [lia | lia | exact T | intros s; split; [intros; lia | discriminate] | intros i b [] |].
  apply (IH (f - 1)%nat trace1 (set acc f info1) info); [lia | | | exact E].
  - destruct f as [| f]; [lia |]. cbn [Nat.sub]. rewrite Nat.sub_0_r. exact P2.
  - intros f'. unfold set. destruct (Nat.eqb_spec f' f) as [-> | N]; [| apply IO]. split; [exact P1 | intros _; lia].
Qed.
Lemma clear_info_ok info : ends <> [] -> clear_info order ends = Some info -> infos_ok info.
Proof using BL.
  intros NE E. unfold clear_info in E. apply (preclear_blocks_ok _ _ _ _ _) in E; [exact E | destruct ends; [congruence | cbn; lia] | intros s g X; discriminate |]. intros f. split; [intros i b [] | congruence].
Qed.

(** * Places at the end of a function *)
Notation play s l a := (fold_left (fun p h => act order s h p) l a).
Lemma play_dropped s l : forall a, (play s (map (fun i => Dropped (said (at_ i))) l) a = if existsb (fun i => Nat.eqb (said (at_ i)) s) l then Absent else a).
Proof. induction l as [| i l IH]; intros a; [reflexivity |]. cbn [map fold_left existsb act]. rewrite IH. destruct (Nat.eqb (said (at_ i)) s), (existsb _ l); reflexivity. Qed.
Lemma play_unused s n : forall j a, (forall k, (j <= k < j + n)%nat -> said (at_ k) <> s) -> play s (map Used (seq j n)) a = a.
Proof.
  induction n as [| n IH]; intros j a H; [reflexivity |]. cbn [seq map fold_left act]. change (nth j order no_record) with (at_ j). destruct (Nat.eqb_spec (said (at_ j)) s) as [E |]; [destruct (H j ltac:(lia) E) |]. apply IH. intros k K. apply H. lia.
Qed.
Lemma body_clear s f a : ends_clear s f (block_start f) -> play s (body f) a = Absent.
Proof.
  intros (c & C1 & C2 & C3 & C4). unfold SwapSpec.body. rewrite play_app, play_dropped. destruct (existsb _ _); [reflexivity |]. rewrite accesses_block. unfold SwapModel.block.
  replace (block_end f - block_start f)%nat with ((c - block_start f) + S (block_end f - S c))%nat by lia. rewrite seq_app, map_app, play_app. replace (block_start f + (c - block_start f))%nat with c by lia. cbn [seq map fold_left act]. change (nth c order no_record) with (at_ c). rewrite C3, Nat.eqb_refl.
  assert (TC : tag (at_ c) = Clear) by (unfold is_clear in C2; destruct (tag (at_ c)); try discriminate; reflexivity). rewrite TC. apply play_unused. intros k K. apply C4. lia.
Qed.
Lemma body_temporary f i a : List.In i (block f) -> is_clear (at_ i) = false -> temporary (at_ i) = true -> play (said (at_ i)) (body f) a = Absent.
Proof.
  intros B C T. unfold SwapSpec.body. rewrite play_app, play_dropped, accesses_block. assert (E : existsb (fun j => Nat.eqb (said (at_ j)) (said (at_ i))) (filter (fun i => match tag (nth i order no_record) with Clear => false | _ => temporary (nth i order no_record) end) (block f)) = true); [| rewrite E; reflexivity].
  apply existsb_exists. exists i. split; [| apply Nat.eqb_refl]. apply filter_In. split; [exact B |]. change (nth i order no_record) with (at_ i). apply not_clear in C. destruct (tag (at_ i)); [exact T | exact T | contradiction].
Qed.
Lemma start_not_leaving s : at_start order ends s <> Leaving.
Proof.
  unfold at_start, after. assert (X : forall l a, a <> Leaving -> (forall h, List.In h l -> match h with Planned _ => False | _ => True end) -> play s l a <> Leaving).
  { induction l as [| h l IH]; intros a A0 H; [exact A0 |]. cbn [fold_left]. apply IH; [| intros h' H'; apply H; right; exact H']. specialize (H h (or_introl eq_refl)). destruct h as [e | i | s']; [destruct H | |]; cbn [act].
    - destruct (Nat.eqb _ s); [| exact A0]. change (nth i order no_record) with (at_ i). destruct (tag (at_ i)), (on_device (at_ i)); congruence.
    - destruct (Nat.eqb s' s); congruence. }
  apply X; [discriminate |]. intros h I. unfold SwapSpec.body in I. apply in_app_iff in I as [I | I]; apply in_map_iff in I as (i & <- & _); exact Logic.I.
Qed.

(** * Swapping out *)
Record leaving (h f i : nat) (p : params) : Prop := {
  l_inv : inv i f (block_end f) p;
  l_begins : forall k, (f < k)%nat -> begins p k = [];
  l_finals : forall k, (h < k)%nat -> finals p k = [];
  l_in : forall s, used s -> state (st p s) = In -> of_array s (finals p h) = [];
  l_still : forall s j k, List.In j (block h) -> uses s j = true -> (h < k)%nat -> of_array s (begins p k) = [];
  l_pref : forall s j, (i <= j < block_end f)%nat -> uses s j = true -> state (st p s) <> Unprefetched;
  l_head : (block_end f <= head p)%nat }.
Section one_block.
Variables (h f : nat) (infoh : list (nat * bool)).
Hypothesis HF : (h <= f)%nat.
Hypothesis HZ : h = O \/ h = f.
Hypothesis HL : (h < length ends)%nat.
Hypothesis HB : (block_end h <= block_end f)%nat.
Hypothesis HU : forall k j, (h < k <= f)%nat -> List.In j (block k) -> (block_end h <= j < block_end f)%nat.
Hypothesis IO : info_ok h infoh.
Hypothesis IE : infoh <> [] -> h = f.

Section one_record.
Variables (i : nat) (p : params).
Hypothesis LV : leaving h f i p.
Hypothesis IB : List.In i (block h).
Hypothesis C : is_clear (at_ i) = false.
Notation r := (at_ i).
Notation s := (said (at_ i)).
Notation I := (l_inv _ _ _ _ LV).
Lemma lv_used : used s.
Proof. apply used_at. exact C. Qed.
Lemma lv_range : (i < block_end h)%nat /\ (i < block_end f)%nat /\ (i < head p)%nat.
Proof. pose proof (l_head _ _ _ _ LV). apply in_block in IB. lia. Qed.
Lemma lv_ty : dtype r = ty s.
Proof. apply (ty_at order ty TY). exact C. Qed.
Lemma lv_queue : queue s i (head p) = 1 + queue s (S i) (head p).
Proof. rewrite queue_cons by apply lv_range. rewrite uses_self by exact C. reflexivity. Qed.
Lemma lv_in : state (st p s) = In.
Proof.
  pose proof lv_range as (R1 & R2 & R3). pose proof (i_pos _ _ _ _ _ _ _ _ _ _ I s lv_used) as (X & _). pose proof (queue_pos order s i (head p) i ltac:(lia) (uses_self order i C)) as Q. specialize (X Q).
  pose proof (l_pref _ _ _ _ LV s i ltac:(lia) (uses_self order i C)). destruct (state (st p s)); try discriminate; congruence.
Qed.
Lemma lv_other_queue s' : s' <> s -> queue s' (S i) (head p) = queue s' i (head p).
Proof. intros N. rewrite (queue_cons order s' i) by apply lv_range. rewrite uses_other by exact N. lia. Qed.
(** The only use left. *)
Section last_use.
Hypothesis ONE : queue s i (head p) = 1.
Lemma lv_last j : (i < j < head p)%nat -> uses s j = false.
Proof. intros J. pose proof lv_queue. assert (Q : queue s (S i) (head p) = 0) by lia. rewrite queue_zero in Q. apply Q. lia. Qed.
Lemma lv_still : still order ends s h f (begins p) (finals p).
Proof.
  split; [| split].
  - intros k ev K E. pose proof (l_still _ _ _ _ LV s i k IB (uses_self order i C) K) as X. rewrite of_array_nil in X. apply X. exact E.
  - intros k ev K E. rewrite (l_finals _ _ _ _ LV k K) in E. destruct E.
  - intros k j K J. rewrite accesses_block in J. pose proof (HU k j K J). pose proof lv_range. pose proof (l_head _ _ _ _ LV). apply lv_last. lia.
Qed.
Lemma lv_split l : exists post, Forall (quiet order s) post /\ sofar (begins p) (set (finals p) h (finals p h ++ l)) f = SwapSpec.through order ends (begins p) (finals p) h ++ map Planned (finals p h ++ l) ++ post.
Proof.
  destruct (sofar_split order ends (begins p) (finals p) f h HF) as (pre & post & E & Pp & T). exists post. split.
  - destruct lv_still as (S1 & S2 & S3). apply Forall_forall. intros y Y. destruct (Pp y Y) as [(k' & (t, j) & K & J & ->) | [(k' & (t, j) & K & J & ->) | (k' & K & J)]]; [apply (S1 _ _ K J) | apply (S2 _ _ K J) |].
    pose proof (quiet_body order ends s k' (fun j => S3 k' j K)) as Q. rewrite Forall_forall in Q. apply Q. exact J.
  - rewrite E. f_equal. rewrite (T (finals p h)). apply through_ext; [reflexivity |]. intros k K. apply set_other. lia.
Qed.
Lemma lv_now : now (tr p f) s = now (SwapSpec.through order ends (begins p) (finals p) h) s \/ now (tr p f) s = Absent.
Proof.
  destruct (lv_split []) as (post & Q & E). rewrite app_nil_r in E. assert (X : sofar (begins p) (set (finals p) h (finals p h)) f = tr p f) by (apply sofar_ext; [reflexivity | intros k; unfold set; destruct (Nat.eqb_spec k h) as [-> |]; reflexivity]). rewrite X in E. rewrite E.
  rewrite now_app, play_app, (play_events order s (finals p h)), (l_in _ _ _ _ LV s lv_used lv_in). cbn [map fold_left]. apply quiet_stays. exact Q.
Qed.
Lemma lv_absent : (forall a, play s (body h) a = Absent) -> now (tr p f) s = Absent.
Proof.
  intros X. destruct lv_now as [-> | E]; [| exact E]. destruct h as [| h']; [unfold SwapSpec.through, after; cbn [fold_left]; apply X |]. cbn [SwapSpec.through]. rewrite !app_assoc, now_app. apply X.
Qed.
End last_use.

Lemma count_queue : accumulate_counts order (states p) s = queue s i (head p).
Proof. rewrite (counts_one order ty TY) by apply lv_used. apply (i_count _ _ _ _ _ _ _ _ _ _ I). apply lv_used. Qed.
(** Leaving in a state [t]. *)
Lemma inv_leave p' t sw : queue s i (head p) = 1 -> t = Cleared \/ (t = Out /\ sw = Some i) ->
  (forall s' d, s' <> s -> states p' s' d = states p s' d) -> (forall d, d <> ty s -> state (states p' s d) = Cleared) ->
  st p' s = A 0 t sw -> head p' = head p -> tail p' = tail p -> ins p' = ins p - weight s -> prefetched p' = prefetched p - weight s -> outs p' = outs p + (if is_Out t then weight s else 0) ->
  (forall s', used s' -> known order ends f p' s' -> snd (heads p' s') = ty s') -> begins p' = begins p ->
  (forall s' k, s' <> s -> of_array s' (finals p' k) = of_array s' (finals p k)) ->
  fine (tr p' f) \/ (exists ev, tr p' f = tr p f ++ [Planned ev]) -> rel s (block_end f) t (now (tr p' f) s) -> (t = Out -> out_at order ends strict s f (begins p') (finals p')) ->
  (forall k, (h < k)%nat -> finals p' k = []) -> leaving h f (S i) p'.
Proof.
  intros Q T H1 H2 H3 H4 H5 H6 H7 H8 H9 H10 H11 H12 H13 H14 H15. pose proof lv_range as (R1 & R2 & R3). pose proof lv_queue as LQ.
  assert (OT : forall s', s' <> s -> st p' s' = st p s') by (intros s' N; apply H1; exact N).
  constructor.
  - apply (inv_step order ends max_bytes ty weight strict WN i f (block_end f) p (S i) p' s I lv_used); try assumption; rewrite ?H3, ?lv_in; cbn [count state swapped is_In is_Out is_pre].
    + intros s' N. rewrite H4. apply lv_other_queue. exact N.
    + rewrite H4. lia.
    + rewrite H4. destruct T as [-> | (-> & _)]; cbn [is_pre]; split; try discriminate; lia.
    + destruct T as [-> | (-> & _)]; cbn [is_In]; lia.
    + lia.
    + destruct T as [-> | (-> & _)]; cbn [is_pre]; lia.
    + pose proof (i_max _ _ _ _ _ _ _ _ _ _ I). specialize (WN s). destruct (is_Out t); lia.
    + intros ->. destruct T as [T | (_ & ->)]; [discriminate |]. exists i. split; [reflexivity |]. rewrite H5. pose proof (i_tail _ _ _ _ _ _ _ _ _ _ I). split; [lia | auto].
    + intros k _ K. rewrite H5. exact K.
    + rewrite H5. pose proof (i_tail _ _ _ _ _ _ _ _ _ _ I). lia.
    + lia.
    + rewrite H4. pose proof (i_head _ _ _ _ _ _ _ _ _ _ I). lia.
    + intros s' k N. rewrite H10. reflexivity.
    + exact H13.
    + exact H14.
    + rewrite H10. intros k K. apply (i_begins _ _ _ _ _ _ _ _ _ _ I). exact K.
    + intros k K. apply H15. lia.
  - rewrite H10. apply (l_begins _ _ _ _ LV).
  - exact H15.
  - intros s' U' E. destruct (Nat.eq_dec s' s) as [-> | N]; [rewrite H3 in E; cbn in E; destruct T as [-> | (-> & _)]; discriminate |]. rewrite (OT s' N) in E. rewrite H11 by exact N. apply (l_in _ _ _ _ LV); assumption.
  - rewrite H10. apply (l_still _ _ _ _ LV).
  - intros s' j J U'. destruct (Nat.eq_dec s' s) as [-> | N]; [rewrite H3; cbn; destruct T as [-> | (-> & _)]; discriminate |]. rewrite (OT s' N). apply (l_pref _ _ _ _ LV s' j); [lia | exact U'].
  - rewrite H4. apply (l_head _ _ _ _ LV).
Qed.
Lemma inv_stay : queue s i (head p) <> 1 -> leaving h f (S i) (dequeued p r).
Proof.
  intros Q. pose proof lv_range as (R1 & R2 & R3). pose proof lv_queue as LQ. pose proof (queue_nonneg order s (S i) (head p)). set (p' := dequeued p r).
  assert (SS : st p' s = A (count (st p s) - 1) (state (st p s)) (swapped (st p s))) by (unfold SwapProofs3.st at 1, p', dequeued; cbn [states]; rewrite lv_ty, set_state_same; reflexivity).
  assert (OT : forall s' d, s' <> s \/ d <> ty s -> states p' s' d = states p s' d) by (intros s' d N; unfold p', dequeued; cbn [states]; apply set_state_other; rewrite lv_ty; exact N).
  constructor; try apply LV.
  - apply (inv_step order ends max_bytes ty weight strict WN i f (block_end f) p (S i) p' s I lv_used); rewrite ?SS, ?lv_in; cbn [count state swapped is_In is_Out is_pre]; try reflexivity; try discriminate; try apply I.
    + intros s' d N. apply OT. left. exact N.
    + intros d N. rewrite OT by auto. apply (i_other _ _ _ _ _ _ _ _ _ _ I). tauto.
    + intros s' N. apply lv_other_queue. exact N.
    + rewrite (i_count _ _ _ _ _ _ _ _ _ _ I s lv_used). cbn [p' dequeued head]. unfold p', dequeued. cbn [head]. lia.
    + unfold p', dequeued. cbn [head]. split; [reflexivity | lia].
    + unfold p', dequeued. cbn [ins]. lia.
    + unfold p', dequeued. cbn [outs]. lia.
    + unfold p', dequeued. cbn [prefetched]. lia.
    + auto.
    + unfold p', dequeued. cbn [tail]. pose proof (i_tail _ _ _ _ _ _ _ _ _ _ I). lia.
    + lia.
    + unfold p', dequeued. cbn [head]. pose proof (i_head _ _ _ _ _ _ _ _ _ _ I). lia.
    + left. apply (i_fine _ _ _ _ _ _ _ _ _ _ I).
    + pose proof (i_rel _ _ _ _ _ _ _ _ _ _ I s lv_used) as X. rewrite lv_in in X. exact X.
  - intros s' U' E. apply (l_in _ _ _ _ LV s' U'). destruct (Nat.eq_dec s' s) as [-> | N]; [rewrite SS in E; exact E |]. unfold SwapProofs3.st in *. rewrite OT in E by auto. exact E.
  - intros s' j J U'. destruct (Nat.eq_dec s' s) as [-> | N]; [rewrite SS, lv_in; discriminate |]. unfold SwapProofs3.st. rewrite OT by auto. apply (l_pref _ _ _ _ LV s' j); [lia | exact U'].
Qed.

Lemma released_state s' d : s' = s -> states (released order sizeof p r) s' d = to Cleared (states p s' d).
Proof. intros ->. unfold released. cbn [states]. apply change_same. Qed.
Lemma swap_out_use : leaving h f (S i) (swap_out_one order sizeof infoh h p i).
Proof.
  unfold swap_out_one. rewrite C. unfold leave_one. rewrite count_queue. destruct (Z.eqb_spec (queue s i (head p)) 1) as [Q | Q]; [| apply inv_stay; exact Q].
  assert (BI : bytes_in order sizeof (states p) r is_In = weight s) by (rewrite (bytes_one order sizeof ty weight TY WT p i is_In C), lv_in; reflexivity). assert (CT : count (st p s) = 1) by (rewrite (i_count _ _ _ _ _ _ _ _ _ _ I s lv_used); exact Q).
  assert (KN : forall s', used s' -> known order ends f p s' -> snd (heads p s') = ty s') by apply (i_heads _ _ _ _ _ _ _ _ _ _ I).
  assert (KU : forall hs, (forall s', hs s' = set (heads p) s (false, snd (heads p s)) s') -> forall s', used s' -> fst (hs s') = true \/ (exists j, (j < block_end f)%nat /\ uses s' j = true) -> snd (hs s') = ty s').
  { intros hs E s' U' X. rewrite E in *. unfold set in *. destruct (Nat.eqb_spec s' s) as [-> | N]; cbn [fst snd] in *; apply KN; try exact U'; [destruct X as [X | X]; [discriminate | right; exact X] | exact X]. }
  assert (REL : forall q, (forall s' d, states q s' d = states (released order sizeof p r) s' d) ->
    (forall s' d, s' <> s -> states (dequeued q r) s' d = states p s' d) /\ (forall d, d <> ty s -> state (states (dequeued q r) s d) = Cleared) /\ exists sw, st (dequeued q r) s = A 0 Cleared sw).
  { intros q E. split; [| split].
    - intros s' d N. unfold dequeued. cbn [states]. rewrite set_state_other by auto. rewrite E. unfold released. cbn [states]. apply change_other. exact N.
    - intros d N. unfold dequeued. cbn [states]. rewrite set_state_other by (rewrite lv_ty; auto). rewrite E, released_state by reflexivity. reflexivity.
    - exists (swapped (st p s)). unfold SwapProofs3.st at 1, dequeued. cbn [states]. rewrite lv_ty, set_state_same, E, released_state by reflexivity. fold (st p s). cbn [to count state swapped]. rewrite CT. reflexivity. }
  destruct (find (fun x => Nat.eqb (fst x) i) infoh) as [(i', b) |] eqn:FD.
  - apply find_some in FD as (FD & FE). cbn [fst] in FE. apply Nat.eqb_eq in FE. subst i'. assert (HF' : h = f) by (apply IE; intros ->; destruct FD). destruct (IO i b FD) as (_ & _ & ID). destruct b.
    + set (q := unheaded _ _). destruct (REL q ltac:(reflexivity)) as (E1 & E2 & sw & E3). assert (TR : tr (dequeued q r) f = tr p f ++ [Planned (Preclear, i)]).
      { unfold SwapProofs3.tr. unfold q. cbn [dequeued unheaded at_end released begins finals]. rewrite HF'. apply sofar_final. apply (l_begins _ _ _ _ LV). lia. }
      apply (inv_leave (dequeued q r) Cleared sw Q (or_introl eq_refl) E1 E2 E3); unfold q; cbn [dequeued unheaded at_end released head tail ins prefetched outs heads begins finals is_Out]; try reflexivity; try discriminate; try (rewrite BI; lia); try lia.
      * unfold known. cbn [heads]. apply KU. reflexivity.
      * intros s' k N. apply push_of_array. cbn [snd]. congruence.
      * right. exists (Preclear, i). exact TR.
      * change (rel s (block_end f) Cleared (now (tr (dequeued q r) f) s)). rewrite TR, after_snoc. cbn [SwapProofs3.rel act]. change (nth i order no_record) with (at_ i). rewrite Nat.eqb_refl. reflexivity.
      * intros k K. unfold push. rewrite set_other by lia. apply (l_finals _ _ _ _ LV). exact K.
    + set (q := released _ _ _ _). destruct (REL q ltac:(reflexivity)) as (E1 & E2 & sw & E3).
      apply (inv_leave (dequeued q r) Cleared sw Q (or_introl eq_refl) E1 E2 E3); unfold q; cbn [dequeued released head tail ins prefetched outs heads begins finals is_Out]; try reflexivity; try discriminate; try (rewrite BI; lia); try lia; try assumption.
      * left. apply (i_fine _ _ _ _ _ _ _ _ _ _ I).
      * cbn [SwapProofs3.rel]. apply lv_absent; [exact Q |]. intros a. apply body_clear. exact ID.
      * apply (l_finals _ _ _ _ LV).
  - destruct (temporary r) eqn:TM.
    + set (q := unheaded _ _). destruct (REL q ltac:(reflexivity)) as (E1 & E2 & sw & E3).
      apply (inv_leave (dequeued q r) Cleared sw Q (or_introl eq_refl) E1 E2 E3); unfold q; cbn [dequeued unheaded released head tail ins prefetched outs heads begins finals is_Out]; try reflexivity; try discriminate; try (rewrite BI; lia); try lia.
      * unfold known. cbn [heads]. apply KU. reflexivity.
      * left. apply (i_fine _ _ _ _ _ _ _ _ _ _ I).
      * cbn [SwapProofs3.rel]. apply lv_absent; [exact Q |]. intros a. apply body_temporary; assumption.
      * apply (l_finals _ _ _ _ LV).
    + assert (HD : snd (heads p s) = ty s) by (apply KN; [apply lv_used | right; exists i; split; [apply lv_range | apply uses_self; exact C]]).
      rewrite (total_one order ty TY) by apply lv_used. rewrite HD, Nat.eqb_refl, andb_true_r. fold (st p s). rewrite lv_in. cbn [is_In]. rewrite <- lv_ty at 1. rewrite (wt_at order sizeof weight WT i C), BI. set (q := at_end _ _ _).
      assert (E1 : forall s' d, s' <> s -> states (dequeued q r) s' d = states p s' d) by (intros s' d N; unfold q, dequeued; cbn [states]; rewrite set_state_other by auto; unfold at_end; cbn [states]; apply change_other; exact N).
      assert (E2 : forall d, d <> ty s -> state (states (dequeued q r) s d) = Cleared).
      { intros d N. unfold q, dequeued. cbn [states]. rewrite set_state_other by (rewrite lv_ty; auto). unfold at_end. cbn [states]. rewrite change_same. assert (Y : state (states p s d) = Cleared) by (apply (i_other _ _ _ _ _ _ _ _ _ _ I); tauto). rewrite Y. exact Y. }
      assert (E3 : st (dequeued q r) s = A 0 Out (Some i)).
      { unfold SwapProofs3.st at 1, q, dequeued. cbn [states]. rewrite lv_ty, set_state_same. unfold at_end. cbn [states]. rewrite change_same. fold (st p s). rewrite lv_in, Nat.eqb_refl. cbn [is_In count state swapped]. rewrite CT. reflexivity. }
      destruct (sofar_out order ends weight max_bytes strict i h f (begins p) (finals p) (finals p h) [] HF (lv_still Q) ltac:(intros ev [])) as (S1 & S2 & _ & _). cbv zeta in S1, S2. rewrite app_nil_r in S1, S2.
      assert (W : sofar (begins p) (set (finals p) h (finals p h)) f = tr p f) by (apply sofar_ext; [reflexivity | intros k; unfold set; destruct (Nat.eqb_spec k h) as [-> |]; reflexivity]). rewrite W in S1, S2.
      change (sofar (begins p) (set (finals p) h (finals p h ++ [(SwapOut, i)])) f) with (tr (dequeued q r) f) in S1, S2.
      pose proof (i_rel _ _ _ _ _ _ _ _ _ _ I s lv_used) as R. rewrite lv_in in R. cbn [SwapProofs3.rel] in R.
      apply (inv_leave (dequeued q r) Out (Some i) Q (or_intror (conj eq_refl eq_refl)) E1 E2 E3); unfold q; cbn [dequeued at_end head tail ins prefetched outs heads begins finals is_Out]; try reflexivity; try lia; try assumption.
      * intros s' k N. apply push_of_array. cbn [snd]. congruence.
      * left. apply S1. apply (i_fine _ _ _ _ _ _ _ _ _ _ I).
      * change (rel s (block_end f) Out (now (tr (dequeued q r) f) s)). rewrite S2. cbn [SwapProofs3.rel]. split; [destruct (now (tr p f) s); discriminate |]. intros St. destruct (R St) as [-> | (-> & FR)]; [left; reflexivity | right; exact FR].
      * intros _. exists h, i, []. split; [exact HF | split; [exact HL | split; [reflexivity | split; [| split; [| split]]]]].
        -- unfold push. rewrite set_same, of_array_app, (l_in _ _ _ _ LV s lv_used lv_in). apply (of_array_self order (SwapOut, i)).
        -- intros k K. split; [apply (l_still _ _ _ _ LV s i k IB (uses_self order i C) K) |]. unfold push. rewrite set_other by lia. rewrite (l_finals _ _ _ _ LV k K). reflexivity.
        -- apply (lv_still Q).
        -- intros St. cbn [map fold_left]. rewrite (through_ext order ends (begins p) (push (finals p) h (SwapOut, i)) (begins p) (finals p)); [| reflexivity | intros k K; unfold push; apply set_other; lia].
           destruct HZ as [Z0 | Z0]; [rewrite Z0; apply start_not_leaving |].
           assert (E : now (tr p f) s = now (SwapSpec.through order ends (begins p) (finals p) h) s).
           { unfold SwapProofs3.tr, SwapProofs2.sofar. rewrite (l_begins _ _ _ _ LV (S f)) by lia. rewrite <- Z0. cbn [map]. rewrite app_nil_r, now_app, (play_events order s (finals p h)), (l_in _ _ _ _ LV s lv_used lv_in). reflexivity. }
           rewrite <- E. destruct (R St) as [-> | (-> & _)]; discriminate.
      * intros k K. unfold push. rewrite set_other by lia. apply (l_finals _ _ _ _ LV). exact K.
Qed.
End one_record.
End one_block.
End plan.
