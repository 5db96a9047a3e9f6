(** The incidence matrices act on real cochains as on integer ones. *)
From Coq Require Import ZArith List Arith Reals Lia Lra.
From Verif Require Import NdArray LocalNumberingModel IncidenceModel Sums IncidenceSpec IncidenceThms.
From Verif Require Import PolySpec PolyProofs TensorSpec.
Import ListNotations.
Local Open Scope R_scope.

Definition unit_z (c c' : nat) : Z := if Nat.eqb c' c then 1%Z else 0%Z.
Lemma sumn_unit n f c : (c < n)%nat -> sumn n (fun m => f m * unit_z c m)%Z = f c.
Proof.
  unfold sumn. intros Hc.
  assert (G : forall m, zsum (map (fun m => f m * unit_z c m)%Z (seq 0 m)) = if lt_dec c m then f c else 0%Z).
  { induction m as [|m IH]; [reflexivity|]. rewrite seq_S, map_app, zsum_app, IH. cbn. unfold unit_z.
    destruct (lt_dec c m), (lt_dec c (S m)), (Nat.eqb_spec m c); subst; try lia. }
  rewrite G. destruct (lt_dec c n); [reflexivity|lia].
Qed.
Definition rterms (ts : list (Z * nat)) (x : nat -> R) : R := fold_right Rplus 0 (map (fun t => IZR (fst t) * x (snd t)) ts).
Definition zterms (ts : list (Z * nat)) (x : nat -> Z) : Z := zsum (map (fun t => fst t * x (snd t))%Z ts).
Lemma act_real E r ts : (forall x, matvec E x r = zterms ts x) -> Forall (fun t => (snd t < m_cols E)%nat) ts ->
  forall x, apply E x r = rterms ts x.
Proof.
  intros H F x. unfold apply.
  rewrite (total_ext _ _ (fun c => IZR (zterms ts (unit_z c)) * x c)).
  2:{ intros c Hc. f_equal. f_equal. rewrite <- H. unfold matvec. symmetry. apply (sumn_unit _ (entry E r) c Hc). }
  clear H. unfold zterms, rterms. induction ts as [|[v c] ts IH].
  - cbn. apply total_0. intros. ring.
  - inversion F; subst. cbn [map fst snd fold_right].
    rewrite (total_ext _ _ (fun d => (IZR v * x d) * kronecker d c + IZR (zsum (map (fun t => fst t * unit_z d (snd t))%Z ts)) * x d)).
    2:{ intros d Hd. change (zsum (v * unit_z d c :: map (fun t => fst t * unit_z d (snd t)) ts))%Z with (v * unit_z d c + zsum (map (fun t => fst t * unit_z d (snd t)) ts))%Z. rewrite plus_IZR, mult_IZR. generalize (zsum (map (fun t => fst t * unit_z d (snd t))%Z ts)). intros q. unfold unit_z, kronecker. rewrite (Nat.eqb_sym d c). destruct (Nat.eqb c d); ring. }
    rewrite total_plus, (total_kronecker _ (fun d => IZR v * x d)) by assumption. f_equal. apply IH. assumption.
Qed.
Lemma rcoef_num x ln c ix r : num ln c ix r -> rcoef x ln c ix = x r.
Proof. intros (l & a & -> & Ha & Hg). unfold rcoef. rewrite Ha, Hg. reflexivity. Qed.
Lemma coef_num x ln c ix r : num ln c ix r -> coef x ln c ix = x r.
Proof. intros (l & a & -> & Ha & Hg). unfold coef. rewrite Ha, Hg. reflexivity. Qed.

(** one row with two, four or six terms *)
Lemma act2 E r ln0 N c1 ix1 c2 ix2 s1 s2 : numbering_bijective ln0 N -> m_cols E = N ->
  (forall x, exists_dof ln0 c1 ix1 /\ exists_dof ln0 c2 ix2 /\ matvec E x r = (s1 * coef x ln0 c1 ix1 + s2 * coef x ln0 c2 ix2)%Z) ->
  forall x, apply E x r = IZR s1 * rcoef x ln0 c1 ix1 + IZR s2 * rcoef x ln0 c2 ix2.
Proof.
  intros (B & _) <- H x. destruct (H (fun _ => 0%Z)) as ([r1 N1] & [r2 N2] & _).
  rewrite (act_real E r [(s1, r1); (s2, r2)]).
  - rewrite (rcoef_num _ _ _ _ _ N1), (rcoef_num _ _ _ _ _ N2). unfold rterms. cbn. ring.
  - intros z. destruct (H z) as (_ & _ & ->). rewrite (coef_num _ _ _ _ _ N1), (coef_num _ _ _ _ _ N2). unfold zterms. cbn. ring.
  - repeat apply Forall_cons; try apply Forall_nil; cbn; eapply B; eassumption.
Qed.
Lemma act4 E r ln0 N c1 ix1 c2 ix2 c3 ix3 c4 ix4 s1 s2 s3 s4 : numbering_bijective ln0 N -> m_cols E = N ->
  (forall x, exists_dof ln0 c1 ix1 /\ exists_dof ln0 c2 ix2 /\ exists_dof ln0 c3 ix3 /\ exists_dof ln0 c4 ix4 /\
     matvec E x r = (s1 * coef x ln0 c1 ix1 + s2 * coef x ln0 c2 ix2 + s3 * coef x ln0 c3 ix3 + s4 * coef x ln0 c4 ix4)%Z) ->
  forall x, apply E x r = IZR s1 * rcoef x ln0 c1 ix1 + IZR s2 * rcoef x ln0 c2 ix2 + IZR s3 * rcoef x ln0 c3 ix3 + IZR s4 * rcoef x ln0 c4 ix4.
Proof.
  intros (B & _) <- H x. destruct (H (fun _ => 0%Z)) as ([r1 N1] & [r2 N2] & [r3 N3] & [r4 N4] & _).
  rewrite (act_real E r [(s1, r1); (s2, r2); (s3, r3); (s4, r4)]).
  - rewrite (rcoef_num _ _ _ _ _ N1), (rcoef_num _ _ _ _ _ N2), (rcoef_num _ _ _ _ _ N3), (rcoef_num _ _ _ _ _ N4). unfold rterms. cbn. ring.
  - intros z. destruct (H z) as (_ & _ & _ & _ & ->).
    rewrite (coef_num _ _ _ _ _ N1), (coef_num _ _ _ _ _ N2), (coef_num _ _ _ _ _ N3), (coef_num _ _ _ _ _ N4). unfold zterms. cbn. ring.
  - repeat apply Forall_cons; try apply Forall_nil; cbn; eapply B; eassumption.
Qed.
Lemma act6 E r ln0 N c1 ix1 c2 ix2 c3 ix3 c4 ix4 c5 ix5 c6 ix6 s1 s2 s3 s4 s5 s6 : numbering_bijective ln0 N -> m_cols E = N ->
  (forall x, exists_dof ln0 c1 ix1 /\ exists_dof ln0 c2 ix2 /\ exists_dof ln0 c3 ix3 /\ exists_dof ln0 c4 ix4 /\ exists_dof ln0 c5 ix5 /\ exists_dof ln0 c6 ix6 /\
     matvec E x r = (s1 * coef x ln0 c1 ix1 + s2 * coef x ln0 c2 ix2 + s3 * coef x ln0 c3 ix3 + s4 * coef x ln0 c4 ix4 + s5 * coef x ln0 c5 ix5 + s6 * coef x ln0 c6 ix6)%Z) ->
  forall x, apply E x r = IZR s1 * rcoef x ln0 c1 ix1 + IZR s2 * rcoef x ln0 c2 ix2 + IZR s3 * rcoef x ln0 c3 ix3 + IZR s4 * rcoef x ln0 c4 ix4 + IZR s5 * rcoef x ln0 c5 ix5 + IZR s6 * rcoef x ln0 c6 ix6.
Proof.
  intros (B & _) <- H x. destruct (H (fun _ => 0%Z)) as ([r1 N1] & [r2 N2] & [r3 N3] & [r4 N4] & [r5 N5] & [r6 N6] & _).
  rewrite (act_real E r [(s1, r1); (s2, r2); (s3, r3); (s4, r4); (s5, r5); (s6, r6)]).
  - rewrite (rcoef_num _ _ _ _ _ N1), (rcoef_num _ _ _ _ _ N2), (rcoef_num _ _ _ _ _ N3), (rcoef_num _ _ _ _ _ N4), (rcoef_num _ _ _ _ _ N5), (rcoef_num _ _ _ _ _ N6). unfold rterms. cbn. ring.
  - intros z. destruct (H z) as (_ & _ & _ & _ & _ & _ & ->).
    rewrite (coef_num _ _ _ _ _ N1), (coef_num _ _ _ _ _ N2), (coef_num _ _ _ _ _ N3), (coef_num _ _ _ _ _ N4), (coef_num _ _ _ _ _ N5), (coef_num _ _ _ _ _ N6). unfold zterms. cbn. ring.
  - repeat apply Forall_cons; try apply Forall_nil; cbn; eapply B; eassumption.
Qed.

(** * every matrix, on real cochains; S i for i+1 *)
(** bring the integer statement [Q] into shape *)
Ltac use2 Q := let z := fresh in intros z; destruct (Q z) as (?D1 & ?D2 & ->); rewrite ?Nat.add_1_r in *; split; [assumption|split; [assumption|ring]].
Ltac dof := match goal with |- exists r, num _ _ _ r => idtac end; rw_ln; exd.
Local Open Scope nat_scope.

Lemma real_m1n1k0 p E : E_m1n1k0 p = Some E -> forall x i, i < p ->
  rcoef (apply E x) (ln_m1n1k1 p) 0 [i] = (rcoef x (ln_m1n1k0 p) 0 [S i] - rcoef x (ln_m1n1k0 p) 0 [i])%R.
Proof.
  intros HE x i Hi. destruct (act_m1n1k0 p) as (E' & HE' & _ & Hc & H). rewrite HE in HE'. injection HE' as <-.
  assert (N : exists r, num (ln_m1n1k1 p) 0 [i] r) by dof. destruct N as [r N]. rewrite (rcoef_num _ _ _ _ _ N).
  assert (Q := fun x => H x i r N).
  rewrite (act2 E r (ln_m1n1k0 p) _ 0 [i] 0 [S i] (-1) 1 (bij_m1n1k0 p) Hc) by use2 Q. lra.
Qed.

Lemma real_m2n2k0_inner px py E : E_m2n2k0_inner px py = Some E -> forall x,
  (forall i j, i < px -> j < py + 1 -> rcoef (apply E x) (ln_m2n2k1_inner px py) 0 [i; j] = (rcoef x (ln_m2n2k0 px py) 0 [S i; j] - rcoef x (ln_m2n2k0 px py) 0 [i; j])%R) /\
  (forall i j, i < px + 1 -> j < py -> rcoef (apply E x) (ln_m2n2k1_inner px py) 1 [i; j] = (rcoef x (ln_m2n2k0 px py) 0 [i; S j] - rcoef x (ln_m2n2k0 px py) 0 [i; j])%R).
Proof.
  intros HE x. destruct (act_m2n2k0i px py) as (E' & HE' & _ & Hc & H0 & H1). rewrite HE in HE'. injection HE' as <-.
  split; intros i j Hi Hj.
  - assert (N : exists r, num (ln_m2n2k1_inner px py) 0 [i; j] r) by dof. destruct N as [r N]. rewrite (rcoef_num _ _ _ _ _ N).
    assert (Q := fun x => H0 x i j r N).
    rewrite (act2 E r (ln_m2n2k0 px py) _ 0 [i; j] 0 [S i; j] (-1) 1 (bij_m2n2k0 px py) Hc) by use2 Q. lra.
  - assert (N : exists r, num (ln_m2n2k1_inner px py) 1 [i; j] r) by dof. destruct N as [r N]. rewrite (rcoef_num _ _ _ _ _ N).
    assert (Q := fun x => H1 x i j r N).
    rewrite (act2 E r (ln_m2n2k0 px py) _ 0 [i; j] 0 [i; S j] (-1) 1 (bij_m2n2k0 px py) Hc) by use2 Q. lra.
Qed.

Lemma real_m2n2k0_outer px py E : E_m2n2k0_outer px py = Some E -> forall x,
  (forall i j, i < px + 1 -> j < py -> rcoef (apply E x) (ln_m2n2k1_outer px py) 0 [i; j] = (rcoef x (ln_m2n2k0 px py) 0 [i; S j] - rcoef x (ln_m2n2k0 px py) 0 [i; j])%R) /\
  (forall i j, i < px -> j < py + 1 -> rcoef (apply E x) (ln_m2n2k1_outer px py) 1 [i; j] = (- (rcoef x (ln_m2n2k0 px py) 0 [S i; j] - rcoef x (ln_m2n2k0 px py) 0 [i; j]))%R).
Proof.
  intros HE x. destruct (act_m2n2k0o px py) as (E' & HE' & _ & Hc & H0 & H1). rewrite HE in HE'. injection HE' as <-.
  split; intros i j Hi Hj.
  - assert (N : exists r, num (ln_m2n2k1_outer px py) 0 [i; j] r) by dof. destruct N as [r N]. rewrite (rcoef_num _ _ _ _ _ N).
    assert (Q := fun x => H0 x i j r N).
    rewrite (act2 E r (ln_m2n2k0 px py) _ 0 [i; j] 0 [i; S j] (-1) 1 (bij_m2n2k0 px py) Hc) by use2 Q. lra.
  - assert (N : exists r, num (ln_m2n2k1_outer px py) 1 [i; j] r) by dof. destruct N as [r N]. rewrite (rcoef_num _ _ _ _ _ N).
    assert (Q := fun x => H1 x i j r N).
    rewrite (act2 E r (ln_m2n2k0 px py) _ 0 [i; j] 0 [S i; j] 1 (-1) (bij_m2n2k0 px py) Hc) by use2 Q. lra.
Qed.

Ltac use4 Q := let z := fresh in intros z; destruct (Q z) as (?D1 & ?D2 & ?D3 & ?D4 & ->); cbv zeta; rewrite ?Nat.add_1_r in *;
  split; [assumption|split; [assumption|split; [assumption|split; [assumption|ring]]]].
Lemma real_m2n2k1_inner px py E : E_m2n2k1_inner px py = Some E -> forall x i j, i < px -> j < py ->
  let u := rcoef x (ln_m2n2k1_inner px py) 0 in let v := rcoef x (ln_m2n2k1_inner px py) 1 in
  rcoef (apply E x) (ln_m2n2k2 px py) 0 [i; j] = ((v [S i; j] - v [i; j]) - (u [i; S j] - u [i; j]))%R.
Proof.
  intros HE x i j Hi Hj. destruct (act_m2n2k1i px py) as (E' & HE' & _ & Hc & H). rewrite HE in HE'. injection HE' as <-.
  assert (N : exists r, num (ln_m2n2k2 px py) 0 [i; j] r) by dof. destruct N as [r N]. rewrite (rcoef_num _ _ _ _ _ N).
  assert (Q := fun x => H x i j r N). cbv zeta in *.
  rewrite (act4 E r (ln_m2n2k1_inner px py) _ 0 [i; j] 0 [i; S j] 1 [i; j] 1 [S i; j] 1 (-1) (-1) 1 (bij_m2n2k1i px py) Hc) by use4 Q. lra.
Qed.
Lemma real_m2n2k1_outer px py E : E_m2n2k1_outer px py = Some E -> forall x i j, i < px -> j < py ->
  let u := rcoef x (ln_m2n2k1_outer px py) 0 in let v := rcoef x (ln_m2n2k1_outer px py) 1 in
  rcoef (apply E x) (ln_m2n2k2 px py) 0 [i; j] = ((u [S i; j] - u [i; j]) + (v [i; S j] - v [i; j]))%R.
Proof.
  intros HE x i j Hi Hj. destruct (act_m2n2k1o px py) as (E' & HE' & _ & Hc & H). rewrite HE in HE'. injection HE' as <-.
  assert (N : exists r, num (ln_m2n2k2 px py) 0 [i; j] r) by dof. destruct N as [r N]. rewrite (rcoef_num _ _ _ _ _ N).
  assert (Q := fun x => H x i j r N). cbv zeta in *.
  rewrite (act4 E r (ln_m2n2k1_outer px py) _ 0 [i; j] 0 [S i; j] 1 [i; j] 1 [i; S j] (-1) 1 (-1) 1 (bij_m2n2k1o px py) Hc) by use4 Q. lra.
Qed.

Lemma real_m3n3k0 px py pz E : E_m3n3k0 px py pz = Some E -> forall x,
  let u := rcoef x (ln_m3n3k0 px py pz) 0 in
  (forall i j k, i < px -> j < py + 1 -> k < pz + 1 -> rcoef (apply E x) (ln_m3n3k1 px py pz) 0 [i; j; k] = (u [S i; j; k] - u [i; j; k])%R) /\
  (forall i j k, i < px + 1 -> j < py -> k < pz + 1 -> rcoef (apply E x) (ln_m3n3k1 px py pz) 1 [i; j; k] = (u [i; S j; k] - u [i; j; k])%R) /\
  (forall i j k, i < px + 1 -> j < py + 1 -> k < pz -> rcoef (apply E x) (ln_m3n3k1 px py pz) 2 [i; j; k] = (u [i; j; S k] - u [i; j; k])%R).
Proof.
  intros HE x. destruct (act_m3n3k0 px py pz) as (E' & HE' & _ & Hc & H0 & H1 & H2). rewrite HE in HE'. injection HE' as <-. cbv zeta.
  split; [|split]; intros i j k Hi Hj Hk.
  - assert (N : exists r, num (ln_m3n3k1 px py pz) 0 [i; j; k] r) by dof. destruct N as [r N]. rewrite (rcoef_num _ _ _ _ _ N).
    assert (Q := fun x => H0 x i j k r N).
    rewrite (act2 E r (ln_m3n3k0 px py pz) _ 0 [i; j; k] 0 [S i; j; k] (-1) 1 (bij_m3n3k0 px py pz) Hc) by use2 Q. lra.
  - assert (N : exists r, num (ln_m3n3k1 px py pz) 1 [i; j; k] r) by dof. destruct N as [r N]. rewrite (rcoef_num _ _ _ _ _ N).
    assert (Q := fun x => H1 x i j k r N).
    rewrite (act2 E r (ln_m3n3k0 px py pz) _ 0 [i; j; k] 0 [i; S j; k] (-1) 1 (bij_m3n3k0 px py pz) Hc) by use2 Q. lra.
  - assert (N : exists r, num (ln_m3n3k1 px py pz) 2 [i; j; k] r) by dof. destruct N as [r N]. rewrite (rcoef_num _ _ _ _ _ N).
    assert (Q := fun x => H2 x i j k r N).
    rewrite (act2 E r (ln_m3n3k0 px py pz) _ 0 [i; j; k] 0 [i; j; S k] (-1) 1 (bij_m3n3k0 px py pz) Hc) by use2 Q. lra.
Qed.

Lemma real_m3n3k1 px py pz E : E_m3n3k1 px py pz = Some E -> forall x,
  let u := rcoef x (ln_m3n3k1 px py pz) 0 in let v := rcoef x (ln_m3n3k1 px py pz) 1 in let w := rcoef x (ln_m3n3k1 px py pz) 2 in
  (forall i j k, i < px + 1 -> j < py -> k < pz -> rcoef (apply E x) (ln_m3n3k2 px py pz) 0 [i; j; k] = ((w [i; S j; k] - w [i; j; k]) - (v [i; j; S k] - v [i; j; k]))%R) /\
  (forall i j k, i < px -> j < py + 1 -> k < pz -> rcoef (apply E x) (ln_m3n3k2 px py pz) 1 [i; j; k] = ((u [i; j; S k] - u [i; j; k]) - (w [S i; j; k] - w [i; j; k]))%R) /\
  (forall i j k, i < px -> j < py -> k < pz + 1 -> rcoef (apply E x) (ln_m3n3k2 px py pz) 2 [i; j; k] = ((v [S i; j; k] - v [i; j; k]) - (u [i; S j; k] - u [i; j; k]))%R).
Proof.
  intros HE x. destruct (act_m3n3k1 px py pz) as (E' & HE' & _ & Hc & H0 & H1 & H2). rewrite HE in HE'. injection HE' as <-. cbv zeta in *.
  split; [|split]; intros i j k Hi Hj Hk.
  - assert (N : exists r, num (ln_m3n3k2 px py pz) 0 [i; j; k] r) by dof. destruct N as [r N]. rewrite (rcoef_num _ _ _ _ _ N).
    assert (Q := fun x => H0 x i j k r N).
    rewrite (act4 E r (ln_m3n3k1 px py pz) _ 2 [i; j; k] 2 [i; S j; k] 1 [i; j; k] 1 [i; j; S k] (-1) 1 1 (-1) (bij_m3n3k1 px py pz) Hc) by use4 Q. lra.
  - assert (N : exists r, num (ln_m3n3k2 px py pz) 1 [i; j; k] r) by dof. destruct N as [r N]. rewrite (rcoef_num _ _ _ _ _ N).
    assert (Q := fun x => H1 x i j k r N).
    rewrite (act4 E r (ln_m3n3k1 px py pz) _ 0 [i; j; k] 0 [i; j; S k] 2 [i; j; k] 2 [S i; j; k] (-1) 1 1 (-1) (bij_m3n3k1 px py pz) Hc) by use4 Q. lra.
  - assert (N : exists r, num (ln_m3n3k2 px py pz) 2 [i; j; k] r) by dof. destruct N as [r N]. rewrite (rcoef_num _ _ _ _ _ N).
    assert (Q := fun x => H2 x i j k r N).
    rewrite (act4 E r (ln_m3n3k1 px py pz) _ 1 [i; j; k] 1 [S i; j; k] 0 [i; j; k] 0 [i; S j; k] (-1) 1 1 (-1) (bij_m3n3k1 px py pz) Hc) by use4 Q. lra.
Qed.

Ltac use6 Q := let z := fresh in intros z; destruct (Q z) as (?D1 & ?D2 & ?D3 & ?D4 & ?D5 & ?D6 & ->); cbv zeta; rewrite ?Nat.add_1_r in *;
  split; [assumption|split; [assumption|split; [assumption|split; [assumption|split; [assumption|split; [assumption|ring]]]]]].
Lemma real_m3n3k2 px py pz E : E_m3n3k2 px py pz = Some E -> forall x i j k, i < px -> j < py -> k < pz ->
  let u := rcoef x (ln_m3n3k2 px py pz) 0 in let v := rcoef x (ln_m3n3k2 px py pz) 1 in let w := rcoef x (ln_m3n3k2 px py pz) 2 in
  rcoef (apply E x) (ln_m3n3k3 px py pz) 0 [i; j; k] = ((u [S i; j; k] - u [i; j; k]) + (v [i; S j; k] - v [i; j; k]) + (w [i; j; S k] - w [i; j; k]))%R.
Proof.
  intros HE x i j k Hi Hj Hk. destruct (act_m3n3k2 px py pz) as (E' & HE' & _ & Hc & H). rewrite HE in HE'. injection HE' as <-. cbv zeta in *.
  assert (N : exists r, num (ln_m3n3k3 px py pz) 0 [i; j; k] r) by dof. destruct N as [r N]. rewrite (rcoef_num _ _ _ _ _ N).
  assert (Q := fun x => H x i j k r N).
  rewrite (act6 E r (ln_m3n3k2 px py pz) _ 0 [i; j; k] 0 [S i; j; k] 1 [i; j; k] 1 [i; S j; k] 2 [i; j; k] 2 [i; j; S k] (-1) 1 (-1) 1 (-1) 1 (bij_m3n3k2 px py pz) Hc) by use6 Q. lra.
Qed.
