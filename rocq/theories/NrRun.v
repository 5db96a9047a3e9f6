(** Proofs about the iterations of the nonlinear solvers. *)
From Coq Require Import List ZArith QArith Qcanon Bool Arith Lia.
From Verif Require Import NrModel NrSpec NrProofs.
Import ListNotations.
Local Open Scope nat_scope.

Lemma add_at x y z : add_iterate x y = Some z -> sum_of x y z.
Proof.
  intros H u e l. unfold at3. destruct (ozip_nth _ _ _ _ H) as (L & M & Hn). specialize (Hn u).
  destruct (nth_error x u) as [xu|] eqn:Ex.
  - destruct (nth_error y u) as [yu|] eqn:Ey; [|apply nth_error_None in Ey; assert (u < length x) by (apply nth_error_Some; congruence); lia].
    destruct (nth_error z u) as [zu|] eqn:Ez; [|apply nth_error_None in Ez; assert (u < length x) by (apply nth_error_Some; congruence); lia].
    symmetry in Hn. destruct (ozip2_at _ _ _ _ Hn) as [_ H2]. apply H2.
  - rewrite Hn. now destruct (nth_error y u).
Qed.
Lemma add_none x y z : add_iterate x y = Some z -> forall u e l, at3 x u e l = None <-> at3 y u e l = None.
Proof.
  intros H u e l. unfold at3. destruct (ozip_nth _ _ _ _ H) as (L & M & Hn). specialize (Hn u).
  destruct (nth_error x u) as [xu|] eqn:Ex.
  - destruct (nth_error y u) as [yu|] eqn:Ey; [|apply nth_error_None in Ey; assert (u < length x) by (apply nth_error_Some; congruence); lia].
    destruct (nth_error z u) as [zu|] eqn:Ez; [|apply nth_error_None in Ez; assert (u < length x) by (apply nth_error_Some; congruence); lia].
    symmetry in Hn. apply (ozip2_none _ _ _ _ Hn).
  - destruct (nth_error y u) as [yu|] eqn:Ey; [|easy]. apply nth_error_None in Ex. assert (u < length y) by (apply nth_error_Some; congruence). lia.
Qed.
Lemma combine_seq_nth {X} (l : list X) : forall k i, nth_error (combine (seq k (length l)) l) i = match nth_error l i with Some a => Some (k + i, a) | None => None end.
Proof.
  induction l as [|a l IH]; intros k [|i]; cbn [length seq combine nth_error]; try easy.
  - now rewrite Nat.add_0_r.
  - rewrite IH. destruct (nth_error l i); [|easy]. now rewrite Nat.add_succ_r.
Qed.
Lemma scatter_at0 gms chain x y : scatter gms chain x = Some y ->
  forall u e l, at3 y u e l = match at3 gms u e l with Some d => nth_error x (chain u d) | None => None end.
Proof.
  intros H u e l. unfold at3. destruct (omap_nth _ _ _ H) as (L & Hn). specialize (Hn u). rewrite combine_seq_nth in Hn.
  destruct (nth_error gms u) as [gu|] eqn:Eg.
  - cbn [fst snd Nat.add] in Hn. destruct (nth_error y u) as [yu|] eqn:Ey.
    + symmetry in Hn. destruct (omap_nth _ _ _ Hn) as (L2 & Hn2). specialize (Hn2 e).
      destruct (nth_error gu e) as [ge|] eqn:Ege.
      * destruct (nth_error yu e) as [ye|] eqn:Eye.
        -- symmetry in Hn2. destruct (omap_nth _ _ _ Hn2) as (L3 & Hn3). apply Hn3.
        -- apply nth_error_None in Eye. assert (e < length gu) by (apply nth_error_Some; congruence). lia.
      * now rewrite Hn2.
    + apply nth_error_None in Ey. rewrite L, combine_length, seq_length in Ey.
      assert (u < length gms) by (apply nth_error_Some; congruence). lia.
  - now rewrite Hn.
Qed.
Lemma scatter_none gms chain x y : scatter gms chain x = Some y -> fits gms y.
Proof.
  intros H u e l. pose proof (scatter_at0 _ _ _ _ H u e l) as D. unfold at3 in *. destruct (omap_nth _ _ _ H) as (L & Hn). specialize (Hn u). rewrite combine_seq_nth in Hn.
  rewrite D. destruct (nth_error gms u) as [gu|] eqn:Eg; [|easy].
  cbn [fst snd Nat.add] in Hn.
  destruct (nth_error y u) as [yu|] eqn:Ey.
  - symmetry in Hn. destruct (omap_nth _ _ _ Hn) as (L2 & Hn2). specialize (Hn2 e).
    destruct (nth_error gu e) as [ge|] eqn:Ege; [|easy].
    destruct (nth_error yu e) as [ye|] eqn:Eye.
    + symmetry in Hn2. destruct (omap_nth _ _ _ Hn2) as (L3 & Hn3). specialize (Hn3 l).
      destruct (nth_error ge l) as [d|] eqn:Ed; [|easy]. split; [easy|]. intros D2. rewrite <- D, Hn3 in D2.
      assert (nth_error ye l = None) by congruence. apply nth_error_None in H0. assert (l < length ge) by (apply nth_error_Some; congruence). lia.
    + apply nth_error_None in Eye. assert (e < length gu) by (apply nth_error_Some; congruence). lia.
  - apply nth_error_None in Ey. rewrite L, combine_length, seq_length in Ey.
    assert (u < length gms) by (apply nth_error_Some; congruence). lia.
Qed.

Lemma scatter_at gms chain x y : scatter gms chain x = Some y -> distributed gms chain x y.
Proof. intros H. split; [now apply (scatter_none _ chain x)|now apply scatter_at0]. Qed.

Lemma take_fst kind ITER cs : forall cs' b, take kind ITER cs = (cs', b) -> map fst cs' = map fst cs.
Proof.
  induction cs as [|[w f] cs IH]; intros cs' b H; cbn [take] in H; [now injection H as <- _|].
  destruct (kind w).
  - destruct (negb _); [now injection H as <- _|]. destruct (bad_place w); [now injection H as <- _|].
    destruct (take kind ITER cs) as [r' b'] eqn:E. injection H as <- _. cbn [map fst]. now rewrite (IH r' b' eq_refl).
  - destruct (take kind ITER cs) as [r' b'] eqn:E. injection H as <- _. cbn [map fst]. now rewrite (IH r' b' eq_refl).
Qed.
Lemma set_x0_fst gms cs : forall x cs' o, set_x0 gms cs x = (cs', o) -> map fst cs' = map fst cs.
Proof.
  induction cs as [|[w f] cs IH]; intros x cs' o H; cbn [set_x0] in H; [now injection H as <- _|].
  destruct w; try (destruct (set_x0 gms cs x) as [r' o'] eqn:E; injection H as <- _; cbn [map fst]; now rewrite (IH x r' o' E)).
  destruct (negb _); [now injection H as <- _|].
  destruct (nth_error x u) as [xu|]; [|now injection H as <- _]. destruct (nth_error gms u) as [gm|]; [|now injection H as <- _].
  destruct (put_dofs gm xu dofs vals) as [y|]; [|now injection H as <- _].
  destruct (set_x0 gms cs _) as [r' o'] eqn:E. injection H as <- _. cbn [map fst]. now rewrite (IH _ r' o' E).
Qed.
Lemma extra_row_spec w : extra_row w = true <-> is_AddFix w.
Proof. unfold is_AddFix. destruct w; cbn [extra_row]; split; try easy; try (intros (? & ? & ? & E); discriminate). intros _. now eexists _, _, _. Qed.
Lemma filter_map_len (ws : list cus) : length (filter (fun c => extra_row (fst c)) ws) = length (filter extra_row (map fst ws)).
Proof. induction ws as [|[w f] ws IH]; [easy|]. cbn [map filter fst]. destruct (extra_row w); cbn [length]; lia. Qed.
Lemma filter_nil_spec ws : length (filter extra_row ws) = 0 <-> (forall w, In w ws -> ~ is_AddFix w).
Proof.
  induction ws as [|w ws IH]; [easy|]. cbn [filter]. destruct (extra_row w) eqn:E.
  - split; [easy|]. intros H. apply extra_row_spec in E. exfalso. now apply (H w (or_introl eq_refl)).
  - rewrite IH. split.
    + intros H v [<-|Hv]; [|now apply H]. intros A. apply extra_row_spec in A. congruence.
    + intros H v Hv. apply H. now right.
Qed.
Lemma filter_one_spec ws : length (filter extra_row ws) = 1 -> exists a w b, ws = a ++ w :: b /\ is_AddFix w /\ (forall v, In v (a ++ b) -> ~ is_AddFix v).
Proof.
  induction ws as [|w ws IH]; [easy|]. cbn [filter]. destruct (extra_row w) eqn:E; intros H.
  - exists [], w, ws. split; [easy|]. split; [now apply extra_row_spec|]. cbn [app]. apply filter_nil_spec. now injection H.
  - destruct (IH H) as (a & v & b & -> & Hv & Ho). exists (w :: a), v, b. split; [easy|]. split; [easy|].
    intros z [<-|Hz]; [|now apply Ho]. intros A. apply extra_row_spec in A. congruence.
Qed.
Lemma drop_spec cs raw x : drop_extra cs raw = Some x -> solution (map fst cs) raw x.
Proof.
  unfold drop_extra, solution. rewrite filter_map_len. destruct (length (filter extra_row (map fst cs))) as [|[|n]] eqn:E; intros H; [| |easy].
  - injection H as <-. left. split; [now apply filter_nil_spec|easy].
  - injection H as <-. right. split; [now apply filter_one_spec|easy].
Qed.

(** ** Newton-Raphson *)
Section Newton.
Variables (gms : list (list (list nat))) (chain : nat -> nat -> nat) (nrm : list Qc -> fl)
  (lin : iterate -> list what -> option (list Qc)) (atol : Q) (m : maxit).
Notation loop := (newton_loop gms chain nrm lin atol m).

(** what is known of a run that ends: the norms, the path, the first stop *)
Lemma newton_done fuel : forall cs st xi k B mm x k' B' j i, loop fuel cs st xi k B = (mm, Done x k' B' j i) -> length B = k ->
  m_store mm = Some x /\ map fst (m_cus mm) = map fst cs /\
  exists ys, newton_path gms chain lin (map fst cs) xi ys x /\ B' = B ++ map nrm ys /\ k' = k + length ys /\ 1 <= length ys /\
    (forall n, 1 <= n < length ys -> stop (B ++ map nrm (firstn n ys)) atol (k + n) m = Go) /\
    stop B' atol k' m = Stop j i.
Proof.
  induction fuel as [|fuel IH]; intros cs st xi k B mm x k' B' j i H HB; cbn [newton_loop] in H; [discriminate|].
  destruct (take newton_kind (S k) cs) as [cs1 ok] eqn:Et. destruct ok; cbn [negb] in H; [|discriminate].
  pose proof (take_fst _ _ _ _ _ Et) as Ef. rewrite Ef in H.
  destruct (lin xi (map fst cs)) as [raw|] eqn:El; [|discriminate].
  destruct (drop_extra cs1 raw) as [y|] eqn:Ed; [|discriminate].
  apply drop_spec in Ed. rewrite Ef in Ed.
  destruct (scatter gms chain y) as [dx|] eqn:Es; [|discriminate]. apply scatter_at in Es.
  destruct (add_iterate xi dx) as [xi1|] eqn:Ea; [|discriminate]. apply add_at in Ea.
  destruct (stop (B ++ [nrm y]) atol (S k) m) as [|j' i'] eqn:Estop.
  - apply IH in H; [|rewrite app_length; cbn; lia].
    destruct H as (Hs & Hc & ys & Hp & HB' & Hk & Hl & Hgo & Hst). split; [easy|]. split; [now rewrite Hc|]. rewrite Ef in Hp.
    exists (y :: ys). split; [eapply np_cons; eassumption|]. split; [rewrite HB', <- app_assoc; easy|]. split; [cbn [length]; lia|].
    split; [cbn [length]; lia|]. split; [|easy]. intros n Hn. destruct n as [|[|n]]; [lia| |].
    + cbn [firstn map]. now replace (k + 1) with (S k) by lia.
    + cbn [firstn map]. specialize (Hgo (S n)). cbn [length] in Hn. replace (k + S (S n)) with (S k + S n) by lia.
      rewrite <- Hgo by lia. cbn [firstn map]. now rewrite <- app_assoc.
  - apply pair_equal_spec in H. destruct H as [<- H]. injection H as <- <- <- <- <-. cbn [m_store m_cus]. split; [easy|]. split; [easy|].
    exists [y]. split; [eapply np_cons; try eassumption; constructor|]. split; [easy|]. split; [cbn [length]; lia|]. split; [cbn [length]; lia|].
    split; [cbn [length]; intros n Hn; lia|easy].
Qed.
Lemma newton_fuel fuel : forall cs st xi k B, 1 <= fuel -> (limit m <= Z.of_nat (k + fuel))%Z -> snd (loop fuel cs st xi k B) <> Fuel.
Proof.
  induction fuel as [|fuel IH]; intros cs st xi k B H1 H2; [lia|]. cbn [newton_loop].
  destruct (take newton_kind (S k) cs) as [cs1 ok]. destruct ok; cbn [negb]; [|easy].
  destruct (lin xi _) as [raw|]; [|easy]. destruct (drop_extra cs1 raw) as [y|]; [|easy].
  destruct (scatter gms chain y) as [dx|]; [|easy]. destruct (add_iterate xi dx) as [xi1|]; [|easy].
  destruct (stop (B ++ [nrm y]) atol (S k) m) as [|j i] eqn:E; [|easy].
  destruct fuel as [|fuel].
  - exfalso. revert E. apply stop_at_limit. lia.
  - apply IH; lia.
Qed.
Lemma newton_more fuel : forall more cs st xi k B, snd (loop fuel cs st xi k B) <> Fuel -> loop (fuel + more) cs st xi k B = loop fuel cs st xi k B.
Proof.
  induction fuel as [|fuel IH]; intros more cs st xi k B H; [now destruct H|]. cbn [Nat.add newton_loop] in *.
  destruct (take newton_kind (S k) cs) as [cs1 ok]. destruct ok; cbn [negb] in *; [|easy].
  destruct (lin xi _) as [raw|]; [|easy]. destruct (drop_extra cs1 raw) as [y|]; [|easy].
  destruct (scatter gms chain y) as [dx|]; [|easy]. destruct (add_iterate xi dx) as [xi1|]; [|easy].
  destruct (stop (B ++ [nrm y]) atol (S k) m) as [|j i]; [|easy]. now apply IH.
Qed.
End Newton.

(** ** Picard *)
Section Picard.
Variables (gms : list (list (list nat))) (chain : nat -> nat -> nat) (N : nat) (nrm : list Qc -> fl)
  (lin : iterate -> list what -> option (list Qc)) (rep : nat -> nat -> option nat) (atol : Q) (m : maxit) (uniq : bool).
Notation loop := (picard_loop gms chain N nrm lin rep atol m uniq).
(** the differences of successive iterates *)
Fixpoint changes (x : iterate) (ys : list (list Qc)) : option (list (list Qc)) :=
  match ys with
  | [] => Some []
  | y :: r => match vsub (gathered gms chain N x) y, scatter gms chain y with
              | Some d, Some x1 => option_map (cons d) (changes x1 r)
              | _, _ => None
              end
  end.
Lemma picard_done fuel : forall cs st xi k B mm x k' B' j i, loop fuel cs st xi k B = (mm, Done x k' B' j i) -> length B = k ->
  map fst (m_cus mm) = map fst cs /\ uniq = true /\
  exists ys y xf ds, m_store mm = Some xf /\ distributed gms chain x xf /\ ys = y ++ [x] /\
    picard_path gms chain lin (map fst cs) xi ys xf /\ changes xi ys = Some ds /\ B' = B ++ map nrm ds /\ k' = k + length ys /\
    (forall n, 1 <= n < length ys -> stop (B ++ map nrm (firstn n ds)) atol (k + n) m = Go) /\
    stop B' atol k' m = Stop j i.
Proof.
  induction fuel as [|fuel IH]; intros cs st xi k B mm x k' B' j i H HB; cbn [picard_loop] in H; [discriminate|].
  destruct (take picard_kind (S k) cs) as [cs1 ok] eqn:Et. destruct ok; cbn [negb] in H; [|discriminate].
  destruct uniq eqn:Eu; cbn [negb] in H; [|discriminate].
  destruct (forallb _ cs1); cbn [negb] in H; [|discriminate].
  pose proof (take_fst _ _ _ _ _ Et) as Ef. rewrite Ef in H.
  destruct (lin xi (map fst cs)) as [raw|] eqn:El; [|discriminate].
  destruct (drop_extra cs1 raw) as [y|] eqn:Ed; [|discriminate].
  apply drop_spec in Ed. rewrite Ef in Ed.
  destruct (vsub (gathered gms chain N xi) y) as [d|] eqn:Ev; [|discriminate].
  destruct (scatter gms chain y) as [x1|] eqn:Es; [|discriminate].
  destruct (stop (B ++ [nrm d]) atol (S k) m) as [|j' i'] eqn:Estop.
  - apply IH in H; [|rewrite app_length; cbn; lia].
    destruct H as (Hc & Hu & ys & y' & xf & ds & Hs & Hd & Ey & Hp & Hch & HB' & Hk & Hgo & Hst). split; [now rewrite Hc|]. split; [easy|]. rewrite Ef in Hp.
    exists (y :: ys), (y :: y'), xf, (d :: ds). split; [easy|]. split; [easy|]. split; [now rewrite Ey|].
    split; [eapply pp_cons; try eassumption; now apply scatter_at|]. split; [cbn [changes]; now rewrite Ev, Es, Hch|].
    split; [rewrite HB', <- app_assoc; easy|]. split; [cbn [length]; lia|]. split; [|easy]. intros n Hn. destruct n as [|[|n]]; [lia| |].
    + cbn [firstn map]. now replace (k + 1) with (S k) by lia.
    + cbn [firstn map]. specialize (Hgo (S n)). cbn [length] in Hn. replace (k + S (S n)) with (S k + S n) by lia.
      rewrite <- Hgo by lia. cbn [firstn map]. now rewrite <- app_assoc.
  - apply pair_equal_spec in H. destruct H as [<- H]. injection H as <- <- <- <- <-. cbn [m_store m_cus]. split; [easy|]. split; [easy|].
    exists [y], [], x1, [d]. split; [easy|]. split; [now apply scatter_at|]. split; [easy|].
    split; [eapply pp_cons; try eassumption; [eapply scatter_at; eassumption|constructor]|].
    split; [cbn [changes]; now rewrite Ev, Es|]. split; [easy|]. split; [cbn [length]; lia|].
    split; [cbn [length]; intros n Hn; lia|easy].
Qed.
Lemma picard_fuel fuel : forall cs st xi k B, 1 <= fuel -> (limit m <= Z.of_nat (k + fuel))%Z -> snd (loop fuel cs st xi k B) <> Fuel.
Proof.
  induction fuel as [|fuel IH]; intros cs st xi k B H1 H2; [lia|]. cbn [picard_loop].
  destruct (take picard_kind (S k) cs) as [cs1 ok]. destruct ok; cbn [negb]; [|easy].
  destruct uniq; cbn [negb]; [|easy]. destruct (forallb _ cs1); cbn [negb]; [|easy].
  destruct (lin xi _) as [raw|]; [|easy]. destruct (drop_extra cs1 raw) as [y|]; [|easy].
  destruct (vsub _ y) as [d|]; [|easy].
  destruct (scatter gms chain y) as [dx|]; [|easy].
  destruct (stop (B ++ [nrm d]) atol (S k) m) as [|j i] eqn:E; [|easy].
  destruct fuel as [|fuel].
  - exfalso. revert E. apply stop_at_limit. lia.
  - apply IH; lia.
Qed.
End Picard.
