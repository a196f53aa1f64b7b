(** Identity removal: one removal succeeds and is a renaming. *)
From Coq Require Import String List Bool Arith Lia.
From Verif Require Import Assoc IdModel IdSpec IdProofs1 IdProofs2.
Import ListNotations.
Local Open Scope string_scope.
Local Open Scope list_scope.

Lemma replace_first_none a b l : ~ In a l -> replace_first a b l = None.
Proof.
  induction l as [|c l IH]; intros H; cbn; auto. destruct (String.eqb_spec a c).
  - subst. destruct H. cbn. auto.
  - rewrite IH; auto. intros I. apply H. cbn. auto.
Qed.
Lemma map_subst_id a b l : ~ In a l -> map (subst1 a b) l = l.
Proof.
  induction l as [|c l IH]; intros H; cbn; auto. rewrite IH by (intros I; apply H; cbn; auto).
  rewrite subst1_ne; auto. intros ->. apply H. cbn. auto.
Qed.
Lemma uses_fun N g v : uses N g v > 0 -> exists gi, aget g (n_funs N) = Some gi /\ uses N g v = occurrences v (f_in gi).
Proof. unfold uses. destruct (aget g (n_funs N)) as [gi|]; [eauto|lia]. Qed.

Theorem step_ok sel N rank pf x y fi ren :
  wf sel N rank -> aget pf (n_funs N) = Some fi -> is_rem sel N pf -> f_in fi = [x] -> f_out fi = [y] ->
  (forall f, produces N f x -> ~ is_rem sel N f) ->
  exists N' a b px py pv,
    remove_function pf N ren = Ok (N', aput a b ren)
    /\ lookup N x = Some px /\ aget y (n_vars N) = Some py
    /\ (kept_input x y a b py \/ kept_output x y a b py)
    /\ renames N N' pf a b pv /\ v_parent pv = v_parent px
    /\ (forall g, g <> pf -> occurrences g (v_req pv) <= uses N g a + uses N g b)
    /\ occurrences pf (v_req pv) = 0
    /\ (~ In b (n_out N) -> forall g, g <> pf -> occurrences g (v_req pv) = uses N g a + uses N g b).
Proof.
  intros W Hf Hrem Hin Hout Hx.
  pose proof (x_y sel N rank W pf x y fi Hf Hin Hout) as Dxy.
  pose proof (pf_out N pf y fi Hf Hout) as Py. pose proof (pf_in N pf x fi Hf Hin) as Ux.
  destruct (lookup N x) as [px|] eqn:Ex; [|destruct (w_in _ _ _ W pf x); auto; lia].
  destruct (w_out _ _ _ W pf y Py) as (py & Ey & Ppy).
  pose proof (y_exact sel N rank W pf y fi Hf Hrem Hout py Ey) as Yr.
  assert (Xfun : forall g, In g (v_req px) -> exists gi, aget g (n_funs N) = Some gi /\ uses N g x = occurrences x (f_in gi)).
  { intros g H. apply uses_fun. apply count_in in H. pose proof (w_req_le _ _ _ W x px g Ex). lia. }
  destruct (v_req py) as [|r0 rs0] eqn:Er.
  - (* the output is kept *)
    assert (C : kept_output x y x y py) by (unfold kept_output; auto).
    pose proof (out_a sel N rank W pf x y fi Hf Hrem Hin Hout Hx x y py Ey (or_intror C)) as Ox.
    destruct (written_a sel N rank W pf x y fi Hf Hrem Hin Hout Hx x y py Ey (or_intror C)) as (p & Pp).
    pose proof (w_out _ _ _ W p x Pp) as (px' & Ex' & Ppx).
    assert (px' = px) as -> by (unfold lookup in Ex; rewrite Ex' in Ex; congruence).
    assert (Pn : p <> pf) by (intros ->; pose proof (pf_writes N pf y fi Hf Hout x Pp); congruence).
    destruct Pp as (gp & Eg & Hg). pose proof (w_nodup _ _ _ W p gp Eg) as ND.
    assert (C1 : occurrences x (f_out gp) = 1).
    { apply (proj1 (NoDup_count_occ' string_dec _)) with (x := x) in ND; auto. }
    pose proof (w_req _ _ _ W x px Ex (or_introl Ox)) as Xr.
    pose (funs1 := aput p {| f_id := f_id gp; f_in := f_in gp; f_out := map (subst1 x y) (f_out gp) |} (n_funs N)).
    assert (F1 : forall g gi, aget g (n_funs N) = Some gi -> exists gi', aget g funs1 = Some gi' /\ f_in gi' = f_in gi /\ f_id gi' = f_id gi).
    { intros g gi E. unfold funs1. rewrite aget_aput. destruct (String.eqb_spec g p) as [->|].
      - eexists. split; [reflexivity|]. cbn. split; congruence.
      - exists gi. auto. }
    pose (req := filter (fun r => negb (String.eqb r pf)) (v_req px)).
    destruct (replace_inputs_spec x y Dxy req funs1) as (funs2 & E2 & G2).
    { intros g Hgi. assert (Hgr : In g (v_req px)) by (apply filter_In in Hgi as (Hgi & _); auto).
      destruct (Xfun g Hgr) as (gi & Egi & Ug). destruct (F1 g gi Egi) as (gi' & Egi' & Ig & _). exists gi'. split; auto.
      unfold req. rewrite count_filter, Ig, <- Ug, <- Xr. destruct (String.eqb g pf); lia. }
    exists {| n_vars := aerase x (aput y {| v_parent := v_parent px; v_req := [] |} (n_vars N)); n_params := n_params N;
              n_funs := aerase pf funs2; n_in := n_in N; n_out := n_out N |}, x, y, px, py, {| v_parent := v_parent px; v_req := [] |}.
    split.
    { unfold remove_function. rewrite Hf, Hin, Hout, Ex, Ey, Er, Ppx, Eg.
      rewrite replace_first_some by lia. rewrite <- C1, replace_n_all. cbn [bind]. fold funs1.
      rewrite others_spec.
      2:{ intros g Hgr. destruct (Xfun g Hgr) as (gi & Egi & _). destruct (F1 g gi Egi) as (gi' & Egi' & _). congruence. }
      fold req. cbn [bind]. rewrite E2. cbn [bind]. rewrite Ex'. reflexivity. }
    split; [auto|]. split; [auto|]. split; [right; exact C|]. split; [|split; [reflexivity|split; [cbn; lia|split; [reflexivity|]]]].
    + constructor; cbn [n_vars n_params n_funs n_in n_out]; auto.
      * intros g. rewrite aget_aerase. destruct (String.eqb_spec g pf); auto. rewrite G2. unfold req. rewrite count_filter.
        destruct (String.eqb_spec g pf); [congruence|]. rewrite Xr. unfold uses, funs1. rewrite aget_aput.
        destruct (String.eqb_spec g p) as [->|gp'].
        -- rewrite Eg. cbn [option_map set_in f_in f_out f_id]. unfold set_in. cbn [f_in f_out f_id]. rewrite replace_n_all. reflexivity.
        -- destruct (aget g (n_funs N)) as [gi|] eqn:Egi; cbn [option_map]; auto. unfold set_in. rewrite replace_n_all.
           rewrite (map_subst_id x y (f_out gi)); auto. intros I. apply gp'. apply (producer_unique sel N rank W g p x); [exists gi; auto|exists gp; auto].
      * intros v. rewrite aget_aerase. destruct (String.eqb_spec v x); auto. apply aget_aput.
    + intros O. destruct O. apply (w_ports _ _ _ W pf y py); auto.
  - (* the input is kept *)
    assert (C : kept_input x y y x py) by (unfold kept_input; rewrite Er; repeat split; discriminate).
    pose proof (out_a sel N rank W pf x y fi Hf Hrem Hin Hout Hx y x py Ey (or_introl C)) as Oy.
    rewrite <- Er in *.
    destruct (replace_inputs_spec y x (not_eq_sym Dxy) (v_req py) (n_funs N)) as (funs1 & E1 & G1).
    { intros g Hg. apply count_in in Hg. rewrite Yr in Hg. destruct (uses_fun N g y Hg) as (gi & Egi & U). exists gi. split; auto. rewrite Yr. lia. }
    pose (req := filter (fun r => negb (String.eqb r pf)) (v_req px)).
    pose (pv := {| v_parent := v_parent px; v_req := v_req py ++ req |}).
    exists {| n_vars := aerase y (aput x pv (n_vars N)); n_params := n_params N;
              n_funs := aerase pf funs1; n_in := n_in N; n_out := n_out N |}, y, x, px, py, pv.
    assert (Cr : forall g, g <> pf -> occurrences g (v_req pv) = uses N g y + occurrences g (v_req px)).
    { intros g n. unfold pv. cbn [v_req]. rewrite count_app. unfold req. rewrite count_filter, Yr.
      destruct (String.eqb_spec g pf); [congruence|]. reflexivity. }
    split.
    { unfold remove_function. rewrite Hf, Hin, Hout, Ex, Ey. destruct (v_req py) as [|r1 rs1] eqn:Er'; [discriminate|]. rewrite <- Er' in *.
      rewrite E1. cbn [bind]. rewrite others_spec.
      2:{ intros g Hgr. destruct (Xfun g Hgr) as (gi & Egi & _). rewrite G1, Egi. discriminate. }
      cbn [bind]. rewrite (replace_first_none y x (n_out N) Oy). unfold pv, req. rewrite Er'. reflexivity. }
    split; [auto|]. split; [auto|]. split; [left; exact C|]. split; [|split; [reflexivity|split; [|split]]].
    + constructor; cbn [n_vars n_params n_funs n_in n_out]; auto.
      * intros g. rewrite aget_aerase. destruct (String.eqb_spec g pf); auto. rewrite G1, Yr. unfold uses.
        destruct (aget g (n_funs N)) as [gi|] eqn:Egi; cbn [option_map]; auto. unfold set_in. rewrite replace_n_all.
        rewrite (map_subst_id y x (f_out gi)); auto. intros I. apply n. apply (producer_unique sel N rank W g pf y); [exists gi; auto|auto].
      * intros v. rewrite aget_aerase. destruct (String.eqb_spec v y); auto. apply aget_aput.
    + intros g n. rewrite Cr by auto. pose proof (w_req_le _ _ _ W x px g Ex). lia.
    + unfold pv. cbn [v_req]. rewrite count_app. unfold req. rewrite count_filter, String.eqb_refl, Yr.
      destruct (Nat.eq_dec (uses N pf y) 0) as [Z|Z]; [lia|]. pose proof (pf_reads N pf x fi Hf Hin y ltac:(lia)). congruence.
    + intros O g n. rewrite Cr by auto. rewrite (w_req _ _ _ W x px Ex (or_introl O)). reflexivity.
Qed.
