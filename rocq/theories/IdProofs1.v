(** Identity removal: what one removal does to a well-formed network. *)
From Coq Require Import String List Bool Arith Lia.
From Verif Require Import Assoc IdModel IdSpec.
Import ListNotations.
Local Open Scope string_scope.
Local Open Scope list_scope.

Notation count := occurrences.
Definition subst1 (a b : string) (v : string) : string := if String.eqb v a then b else v.

Lemma count_cons x y l : count x (y :: l) = (if String.eqb x y then 1 else 0) + count x l.
Proof.
  unfold occurrences. cbn. destruct (string_dec y x), (String.eqb_spec x y); try congruence; lia.
Qed.
Lemma count_app x a b : count x (a ++ b) = count x a + count x b.
Proof. unfold occurrences. induction a; cbn; auto. destruct (string_dec a x); cbn; lia. Qed.
Lemma count_in x l : In x l <-> 0 < count x l.
Proof. unfold occurrences. apply count_occ_In. Qed.
Lemma count_0 x l : ~ In x l <-> count x l = 0.
Proof. rewrite count_in. lia. Qed.

(** Replacing the first n occurrences. *)
Fixpoint replace_n (n : nat) (a b : string) (l : list string) : list string :=
  match l with
  | [] => []
  | c :: l => if String.eqb c a then match n with 0 => c :: l | S n => b :: replace_n n a b l end
              else c :: replace_n n a b l
  end.
Lemma replace_n_0 a b l : replace_n 0 a b l = l.
Proof. induction l as [|c l IH]; cbn; auto. destruct (String.eqb c a); congruence. Qed.
Lemma replace_n_all a b l : replace_n (count a l) a b l = map (subst1 a b) l.
Proof.
  induction l as [|c l IH]; auto. rewrite count_cons. cbn [replace_n map]. unfold subst1 at 1.
  rewrite (String.eqb_sym a c). destruct (String.eqb c a); cbn [Nat.add]; congruence.
Qed.
Lemma replace_first_some a b l : 0 < count a l -> replace_first a b l = Some (replace_n 1 a b l).
Proof.
  induction l as [|c l IH]; [cbn; lia|]. rewrite count_cons. cbn [replace_first replace_n].
  rewrite (String.eqb_sym c a). destruct (String.eqb a c); intros H.
  - rewrite replace_n_0. reflexivity.
  - rewrite IH by lia. reflexivity.
Qed.
Lemma replace_n_S n a b l : a <> b -> replace_n n a b (replace_n 1 a b l) = replace_n (S n) a b l.
Proof.
  intros D. induction l as [|c l IH]; auto. cbn [replace_n]. destruct (String.eqb_spec c a).
  - rewrite replace_n_0. cbn [replace_n]. destruct (String.eqb_spec b a); [congruence|]. reflexivity.
  - cbn [replace_n]. destruct (String.eqb_spec c a); [congruence|]. rewrite IH. reflexivity.
Qed.
Lemma count_replace_1 a b l : a <> b -> 0 < count a l -> count a (replace_n 1 a b l) = count a l - 1.
Proof.
  intros D. induction l as [|c l IH]; [cbn; lia|]. rewrite count_cons. cbn [replace_n].
  rewrite (String.eqb_sym c a). destruct (String.eqb a c) eqn:E; intros H.
  - rewrite replace_n_0, count_cons. apply String.eqb_neq in D. rewrite D. lia.
  - rewrite count_cons, E, IH by lia. lia.
Qed.

Definition set_in (f : pfun) (ins : list string) : pfun := {| f_id := f_id f; f_in := ins; f_out := f_out f |}.
Definition set_out (f : pfun) (outs : list string) : pfun := {| f_id := f_id f; f_in := f_in f; f_out := outs |}.

(** Renaming the readers listed in [rs], each as often as it is listed. *)
Lemma replace_inputs_spec a b : a <> b -> forall rs funs,
  (forall g, In g rs -> exists f, aget g funs = Some f /\ count g rs <= count a (f_in f)) ->
  exists funs', replace_inputs rs a b funs = Ok funs'
    /\ forall g, aget g funs' = option_map (fun f => set_in f (replace_n (count g rs) a b (f_in f))) (aget g funs).
Proof.
  intros D. induction rs as [|r rs IH]; intros funs H.
  - exists funs. split; [reflexivity|]. intros g. destruct (aget g funs) as [[i n o]|]; auto. cbn. unfold set_in. cbn. rewrite replace_n_0. reflexivity.
  - destruct (H r (or_introl eq_refl)) as (f & Ef & Hf). rewrite count_cons, String.eqb_refl in Hf.
    cbn [replace_inputs]. rewrite Ef, replace_first_some by lia.
    destruct (IH (aput r (set_in f (replace_n 1 a b (f_in f))) funs)) as (funs' & E' & G').
    { intros g Hg. rewrite aget_aput. destruct (String.eqb_spec g r) as [->|n].
      - eexists. split; [reflexivity|]. cbn [set_in f_in]. rewrite count_replace_1 by (auto; lia). lia.
      - destruct (H g (or_intror Hg)) as (f' & Ef' & Hf'). exists f'. split; auto. rewrite count_cons in Hf'.
        destruct (String.eqb_spec g r); [congruence|]. lia. }
    exists funs'. split; [exact E'|]. intros g. rewrite G', aget_aput, count_cons.
    destruct (String.eqb_spec g r) as [->|n].
    + rewrite Ef. cbn [option_map set_in f_in f_id f_out]. unfold set_in. cbn [f_in f_id f_out Nat.add]. rewrite replace_n_S by auto. reflexivity.
    + reflexivity.
Qed.

Lemma others_spec pf rs funs : (forall g, In g rs -> aget g funs <> None) ->
  others pf rs funs = Ok (filter (fun r => negb (String.eqb r pf)) rs).
Proof.
  induction rs as [|r rs IH]; intros H; auto. cbn [others filter]. destruct (aget r funs) eqn:E; [|destruct (H r (or_introl eq_refl)); auto].
  rewrite IH by (intros g Hg; apply H; right; auto). cbn [bind]. destruct (String.eqb r pf); reflexivity.
Qed.
Lemma count_filter g pf rs : count g (filter (fun r => negb (String.eqb r pf)) rs) = if String.eqb g pf then 0 else count g rs.
Proof.
  induction rs as [|r rs IH]; [cbn; destruct (String.eqb g pf); reflexivity|]. cbn [filter].
  destruct (String.eqb_spec r pf) as [->|n]; cbn [negb].
  - rewrite IH, count_cons. destruct (String.eqb g pf); auto.
  - rewrite !count_cons, IH. destruct (String.eqb_spec g pf) as [->|m]; auto.
    destruct (String.eqb_spec pf r); [congruence|]. reflexivity.
Qed.
