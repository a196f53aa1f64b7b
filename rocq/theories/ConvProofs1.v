(** The patch matrix: both traversals as plain double loops. *)
From Coq Require Import List ZArith Lia Bool QArith Qcanon.
From Verif Require Import NdModel NdSpec NdProofs IdxModel IdxSpec IdxProofs1 IdxProofs2 IdxProofs3 IdxProofs6 JoinModel JoinSpec JoinProofs JoinProofs2 ScanModel ScanSpec ScanProofs1 ReduceModel ReduceProofs1 ConvModel.
Import ListNotations.
Local Open Scope list_scope.
Local Open Scope Z_scope.

Lemma upto_indices sh : nonneg sh -> upto (size sh) = map (fun i => off i sh) (indices sh).
Proof. intros P. rewrite upto_range, indices_off by auto. reflexivity. Qed.
Lemma loop_indices {T} (F : Z -> T -> option T) sh s : nonneg sh -> loop F (upto (size sh)) s = loop (fun i => F (off i sh)) (indices sh) s.
Proof. intros P. rewrite upto_indices by auto. symmetry. apply (loop_map F (fun i => off i sh)). Qed.
Lemma loop_cons {T} (F : list Z -> T -> option T) n sh s :
  loop F (indices (n :: sh)) s = loop (fun i => loop (fun o => F (i :: o)) (indices sh)) (upto n) s.
Proof.
  cbn [indices]. rewrite <- upto_range, <- loop_flat. apply loop_ext. intros i t _. symmetry. apply (loop_map F (cons i)).
Qed.

(** Splitting a position into an index. *)
Lemma kernel_index_off sh : forall idx, inside idx sh -> kernel_index (off idx sh) sh = idx.
Proof.
  assert (G : forall sh idx m, inside idx sh -> 0 <= m -> map (fun p => Z.rem (Z.quot (m * size sh + off idx sh) (snd p)) (fst p)) (combine sh (cstrides sh)) = idx).
  { induction sh0 as [|n t IH]; intros idx m I M; inversion I as [|i ? r ? Hi F]; subst; [reflexivity|].
    rewrite cstrides_cons. cbn [combine map fst snd size off]. pose proof (off_bound _ _ F) as B. pose proof (size_pos _ (inside_positive _ _ F)) as Sp.
    replace (m * (n * size t) + (i * size t + off r t)) with ((m * n + i) * size t + off r t) by ring.
    assert (Q1 : 0 <= m * n) by (apply Z.mul_nonneg_nonneg; lia).
    assert (Q2 : 0 <= (m * n + i) * size t) by (apply Z.mul_nonneg_nonneg; lia).
    f_equal.
    - rewrite Z.quot_div_nonneg by lia. rewrite Z.div_add_l, Z.div_small by lia. rewrite Z.add_0_r.
      rewrite Z.rem_mod_nonneg by lia. rewrite Z.add_comm, Z.mod_add, Z.mod_small by lia. reflexivity.
    - apply IH; auto. lia. }
  intros idx I. unfold kernel_index. specialize (G sh idx 0 I). rewrite Z.mul_0_l, Z.add_0_l in G. apply G. lia.
Qed.

(** The place in a channel that position [o] of the output reads, if it is inside. *)
Fixpoint place (ds : list dim) (o : list Z) : option Z :=
  match ds, o with
  | d :: ds, i :: o =>
      let si := d_shift d + i * d_stride d in
      if in_shape si (d_in d) then match place ds o with Some t => Some (d_isize d * si + t) | None => None end else None
  | _, _ => Some 0
  end.
(** Sizes as they are computed from the shapes. *)
Fixpoint sized (ds : list dim) : Prop :=
  match ds with [] => True | d :: ds => d_osize d = size (map d_out ds) /\ d_isize d = size (map d_in ds) /\ sized ds end.
Definition read (x : list Qc) (so : Z) (p : option Z) : option Qc := match p with Some t => get x (so + t) | None => Some 0%Qc end.
Definition put_patch (x : list Qc) (so : Z) (p : option Z) (q : Z) (col : list Qc) : option (list Qc) :=
  obind (read x so p) (fun v => put col q v).
Definition add_patch (col : list Qc) (so : Z) (p : option Z) (q : Z) (x : list Qc) : option (list Qc) :=
  match p with
  | Some t => obind (get col q) (fun v => obind (get x (so + t)) (fun old => put x (so + t) (old + v)%Qc))
  | None => Some x
  end.

Lemma loop_id {A T} (l : list A) (s : T) : loop (fun _ s => Some s) l s = Some s.
Proof. induction l as [|a l IH]; [reflexivity|]. cbn [loop obind]. exact IH. Qed.
Lemma indices_1 (T : Type) (F : list Z -> T -> option T) n s : loop F (indices [n]) s = loop (fun i => F [i]) (upto n) s.
Proof. rewrite loop_cons. apply loop_ext. intros i t _. cbn [indices loop]. destruct (F [i] t); reflexivity. Qed.
Lemma zero_fill_ok co sh col x so : nonneg sh -> zero_fill co (size sh) col = loop (fun o => put_patch x so None (co + off o sh)) (indices sh) col.
Proof. intros P. unfold zero_fill. rewrite loop_indices by auto. reflexivity. Qed.

Lemma unfold_1d_ok d x so co col : sized [d] -> unfold_1d d x so co col = loop (fun o => put_patch x so (place [d] o) (co + off o [d_out d])) (indices [d_out d]) col.
Proof.
  intros (_ & E & _). cbn [map size] in E. rewrite indices_1. unfold unfold_1d. apply loop_ext. intros i a _. unfold put_patch. cbn [place off size].
  rewrite E. replace (co + (i * 1 + 0)) with (co + i) by lia. destruct (in_shape _ _); cbn [read]; [|reflexivity].
  replace (so + (1 * (d_shift d + i * d_stride d) + 0)) with (so + (d_shift d + i * d_stride d)) by lia. reflexivity.
Qed.
Lemma fold_1d_ok d col so co x : sized [d] -> fold_1d d col so co x = loop (fun o => add_patch col so (place [d] o) (co + off o [d_out d])) (indices [d_out d]) x.
Proof.
  intros (_ & E & _). cbn [map size] in E. rewrite indices_1. unfold fold_1d. apply loop_ext. intros i a _. unfold add_patch. cbn [place off size].
  rewrite E. destruct (in_shape _ _); [|reflexivity].
  replace (co + (i * 1 + 0)) with (co + i) by lia.
  replace (so + (1 * (d_shift d + i * d_stride d) + 0)) with (so + (d_shift d + i * d_stride d)) by lia. reflexivity.
Qed.
Definition outs (ds : list dim) : list Z := map d_out ds.
Lemma unfold_step d ds x so co i a : nonneg (outs ds) -> sized (d :: ds) ->
  loop (fun o => put_patch x so (place (d :: ds) (i :: o)) (co + off (i :: o) (outs (d :: ds)))) (indices (outs ds)) a =
  if in_shape (d_shift d + i * d_stride d) (d_in d)
  then loop (fun o => put_patch x (so + d_isize d * (d_shift d + i * d_stride d)) (place ds o) (co + i * d_osize d + off o (outs ds))) (indices (outs ds)) a
  else zero_fill (co + i * d_osize d) (d_osize d) a.
Proof.
  intros P (E & _ & _). cbn [place]. destruct (in_shape _ _) eqn:B.
  - apply loop_ext. intros o s _. unfold put_patch. cbn [off outs map]. rewrite E. fold (outs ds).
    replace (co + (i * size (outs ds) + off o (outs ds))) with (co + i * size (outs ds) + off o (outs ds)) by ring.
    destruct (place ds o) as [t|]; cbn [read]; [|reflexivity]. rewrite Z.add_assoc. reflexivity.
  - rewrite E. fold (outs ds). rewrite (zero_fill_ok _ _ _ x so) by auto. apply loop_ext. intros o s _. unfold put_patch. cbn [off outs map]. fold (outs ds).
    rewrite Z.add_assoc. reflexivity.
Qed.
Lemma unfold_nd_ok : forall ds x so co col, (2 <= length ds)%nat -> sized ds -> nonneg (outs ds) ->
  unfold_nd ds x so co col = loop (fun o => put_patch x so (place ds o) (co + off o (outs ds))) (indices (outs ds)) col.
Proof.
  induction ds as [|d ds IH]; intros x so co col L W P; [cbn in L; lia|]. inversion P as [|? ? _ P']; subst.
  cbn [outs map]. fold (outs ds). rewrite loop_cons. cbn [unfold_nd]. apply loop_ext. intros i a _.
  change (d_out d :: outs ds) with (outs (d :: ds)). rewrite unfold_step by auto. destruct (in_shape _ _) eqn:B; cbn [negb]; [|reflexivity].
  destruct W as (_ & _ & W). destruct ds as [|e [|f ds]]; [cbn in L; lia| |].
  - rewrite unfold_1d_ok by exact W. reflexivity.
  - apply IH; auto. cbn [length]. lia.
Qed.
Lemma unfold_kernel_ok ds x so co col : ds <> [] -> sized ds -> nonneg (outs ds) ->
  unfold_kernel ds x so co col = loop (fun o => put_patch x so (place ds o) (co + off o (outs ds))) (indices (outs ds)) col.
Proof.
  intros N W P. destruct ds as [|d [|e [|f ds]]]; [congruence| | |].
  - apply unfold_1d_ok. exact W.
  - rewrite <- unfold_nd_ok by (auto; cbn; lia). cbn [unfold_kernel unfold_nd]. unfold unfold_2d. apply loop_ext. intros i a _.
    destruct (in_shape _ _); reflexivity.
  - apply unfold_nd_ok; auto. cbn. lia.
Qed.
Lemma fold_step d ds col so co i a : sized (d :: ds) ->
  loop (fun o => add_patch col so (place (d :: ds) (i :: o)) (co + off (i :: o) (outs (d :: ds)))) (indices (outs ds)) a =
  if in_shape (d_shift d + i * d_stride d) (d_in d)
  then loop (fun o => add_patch col (so + d_isize d * (d_shift d + i * d_stride d)) (place ds o) (co + i * d_osize d + off o (outs ds))) (indices (outs ds)) a
  else Some a.
Proof.
  intros (E & _ & _). cbn [place]. destruct (in_shape _ _) eqn:B.
  - apply loop_ext. intros o s _. unfold add_patch. cbn [off outs map]. rewrite E. fold (outs ds).
    replace (co + (i * size (outs ds) + off o (outs ds))) with (co + i * size (outs ds) + off o (outs ds)) by ring.
    destruct (place ds o) as [t|]; [|reflexivity]. rewrite Z.add_assoc. reflexivity.
  - unfold add_patch. apply loop_id.
Qed.
Lemma fold_nd_ok : forall ds col so co x, (2 <= length ds)%nat -> sized ds ->
  fold_nd ds col so co x = loop (fun o => add_patch col so (place ds o) (co + off o (outs ds))) (indices (outs ds)) x.
Proof.
  induction ds as [|d ds IH]; intros col so co x L W; [cbn in L; lia|].
  cbn [outs map]. fold (outs ds). rewrite loop_cons. cbn [fold_nd]. apply loop_ext. intros i a _.
  change (d_out d :: outs ds) with (outs (d :: ds)). rewrite fold_step by auto. destruct (in_shape _ _) eqn:B; [|reflexivity].
  destruct W as (_ & _ & W). destruct ds as [|e [|f ds]]; [cbn in L; lia| |].
  - rewrite fold_1d_ok by exact W. reflexivity.
  - apply IH; auto. cbn [length]. lia.
Qed.
Lemma fold_kernel_ok ds col so co x : ds <> [] -> sized ds ->
  fold_kernel ds col so co x = loop (fun o => add_patch col so (place ds o) (co + off o (outs ds))) (indices (outs ds)) x.
Proof.
  intros N W. destruct ds as [|d [|e [|f ds]]]; [congruence| | |].
  - apply fold_1d_ok. exact W.
  - rewrite <- fold_nd_ok by (auto; cbn; lia). cbn [fold_kernel fold_nd]. unfold fold_2d. apply loop_ext. intros i a _.
    destruct (in_shape _ _); reflexivity.
  - apply fold_nd_ok; auto. cbn. lia.
Qed.
