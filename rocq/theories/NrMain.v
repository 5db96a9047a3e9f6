(** Proofs about the solutions of the nonlinear solvers, boundary conditions and repeated solves. *)
From Coq Require Import List ZArith QArith Qcanon Bool Arith Lia.
From Verif Require Import NrModel NrSpec NrProofs NrRun.
Import ListNotations.
Local Open Scope nat_scope.

Section Main.
Variables (gms : list (list (list nat))) (chain : nat -> nat -> nat) (N : nat) (nrm : list Qc -> fl)
  (lin : iterate -> list what -> option (list Qc)) (rep : nat -> nat -> option nat) (atol : Q) (m : maxit).

(** the last iterate is the first one plus the increments *)
Lemma path_sum ws x ys xf : newton_path gms chain lin ws x ys xf -> forall u e l d v, at3 gms u e l = Some d -> at3 x u e l = Some v ->
  exists vs, omap (fun y => nth_error y (chain u d)) ys = Some vs /\ at3 xf u e l = Some (v + qsum vs)%Qc.
Proof.
  induction 1 as [x|x raw y dx x1 ys xf Hl Hs [Hf Hd] Ha Hp IH]; intros u e l d v Hg Hx.
  - exists []. split; [easy|]. rewrite Hx. f_equal. cbn [qsum fold_right]. ring.
  - specialize (Hd u e l). rewrite Hg in Hd. specialize (Ha u e l). rewrite Hx in Ha.
    destruct (nth_error y (chain u d)) as [b|] eqn:Eb.
    + rewrite Hd in Ha. destruct (IH u e l d _ Hg Ha) as (vs & Hv & Hxf). exists (b :: vs).
      split; [cbn [omap]; now rewrite Eb, Hv|]. rewrite Hxf. f_equal. cbn [qsum fold_right]. change (fold_right Qcplus 0%Qc vs) with (qsum vs). ring.
    + apply Hf in Hd. congruence.
Qed.
Lemma path_single ws x ys xf : newton_path gms chain lin ws x ys xf -> single_valued gms x -> single_valued gms xf.
Proof.
  induction 1 as [x|x raw y dx x1 ys xf Hl Hs [Hf Hd] Ha Hp IH]; intros Hx; [easy|]. apply IH.
  intros u e l e' l' d H1 H2. rewrite (Ha u e l), (Ha u e' l'), (Hd u e l), (Hd u e' l'), H1, H2. now rewrite (Hx _ _ _ _ _ _ H1 H2).
Qed.
(** fixed dofs do not move *)
Lemma solution_nth ws raw x i v : solution ws raw x -> nth_error x i = Some v -> nth_error raw i = Some v.
Proof. intros [[_ ->]|[_ ->]]; [easy|apply removelast_nth]. Qed.
Lemma path_fixed ws x ys xf : newton_path gms chain lin ws x ys xf -> respects_fixed chain lin ->
  forall u dofs d e l v, In (Fixed u dofs) ws -> In d dofs -> at3 gms u e l = Some d -> at3 x u e l = Some v -> at3 xf u e l = Some v.
Proof.
  intros Hp Hr u dofs d e l. induction Hp as [x|x raw y dx x1 ys xf Hl Hs [Hf Hd] Ha Hp IH]; intros v Hw Hin Hg Hx; [easy|].
  apply IH; try easy. rewrite (Ha u e l), Hx. specialize (Hd u e l). rewrite Hg in Hd.
  destruct (nth_error y (chain u d)) as [b|] eqn:Eb.
  - rewrite Hd. f_equal. rewrite (Hr _ _ _ _ _ _ _ Hl Hw Hin (solution_nth _ _ _ _ _ Hs Eb)). ring.
  - apply Hf in Hd. congruence.
Qed.

(** ** the initial guess *)
Lemma put_dof_at gm x d v y : put_dof gm x d v = Some y ->
  length y = length x /\
  forall e l, (match nth_error y e with None => None | Some ye => nth_error ye l end) =
    match (match nth_error gm e with None => None | Some ge => nth_error ge l end), (match nth_error x e with None => None | Some xe => nth_error xe l end) with
    | Some g, Some w => Some (if g =? d then v else w) | _, _ => None end.
Proof. intros H. destruct (ozip_nth _ _ _ _ H) as (L & M & _). split; [lia|]. apply (proj2 (ozip2_at _ _ _ _ H)). Qed.
Notation at2 x e l := (match nth_error x e with None => None | Some xe => nth_error xe l end).
Lemma put_dofs_at gm dofs : forall x vals y, put_dofs gm x dofs vals = Some y -> forall e l d w, at2 gm e l = Some d -> at2 x e l = Some w ->
  ((exists i v, nth_error dofs i = Some d /\ nth_error vals i = Some v /\ at2 y e l = Some v /\ forall k, i < k -> nth_error dofs k <> Some d) \/
   (~ In d dofs /\ at2 y e l = Some w)).
Proof.
  induction dofs as [|c dofs IH]; intros x vals y H e l d w Hg Hx; cbn [put_dofs] in H.
  - injection H as <-. now right.
  - destruct vals as [|v vals]; [discriminate|]. destruct (put_dof gm x c v) as [z|] eqn:E; [|discriminate].
    destruct (put_dof_at _ _ _ _ _ E) as [_ Hz]. specialize (Hz e l). rewrite Hg, Hx in Hz.
    destruct (IH _ _ _ H _ _ _ _ Hg Hz) as [(i & v' & H1 & H2 & H3 & H4)|[H1 H2]].
    + left. exists (S i), v'. split; [easy|]. split; [easy|]. split; [easy|]. intros [|k] Hk; [lia|]. apply H4. lia.
    + destruct (d =? c) eqn:Ed; rewrite ?Ed in H2.
      * apply Nat.eqb_eq in Ed. subst c. left. exists 0, v. split; [easy|]. split; [easy|]. split; [easy|].
        intros [|k] Hk; [lia|]. cbn [nth_error]. intros Hn. apply H1. apply (nth_error_In _ _ Hn).
      * apply Nat.eqb_neq in Ed. right. split; [|easy]. intros [Hc|Hin]; [now subst c|easy].
Qed.
Lemma put_dofs_none gm dofs : forall x vals y, put_dofs gm x dofs vals = Some y -> length y = length x /\ forall e l, at2 x e l = None <-> at2 y e l = None.
Proof.
  induction dofs as [|c dofs IH]; intros x vals y H; cbn [put_dofs] in H.
  - injection H as <-. easy.
  - destruct vals as [|v vals]; [discriminate|]. destruct (put_dof gm x c v) as [z|] eqn:E; [|discriminate].
    destruct (IH _ _ _ H) as [L Hn]. destruct (put_dof_at _ _ _ _ _ E) as [L2 Hz]. split; [lia|]. intros e l. rewrite <- Hn.
    pose proof (ozip2_none _ _ _ _ E e l) as Hb. rewrite Hz.
    destruct (at2 gm e l); destruct (at2 x e l); try easy; try (destruct Hb; intuition discriminate).
Qed.
Lemma at3_replace (x : iterate) u y u' e l xu : nth_error x u = Some xu ->
  at3 (replace_nth x u y) u' e l = if u' =? u then at2 y e l else at3 x u' e l.
Proof.
  intros H. unfold at3. rewrite replace_nth_nth. destruct (u' =? u) eqn:E; [|easy]. apply Nat.eqb_eq in E. subst u'. now rewrite H.
Qed.
(** what the customizations write into the initial guess; [rel]: as seen at one place *)
Lemma set_x0_at cs : forall x cs' x', set_x0 gms cs x = (cs', Some x') -> forall u e l d w, at3 gms u e l = Some d -> at3 x u e l = Some w ->
  ((exists dofs vals i v, In (SetX0 u dofs vals) (map fst cs) /\ nth_error dofs i = Some d /\ nth_error vals i = Some v /\ at3 x' u e l = Some v) \/
   ((forall dofs vals, In (SetX0 u dofs vals) (map fst cs) -> ~ In d dofs) /\ at3 x' u e l = Some w)).
Proof.
  induction cs as [|[wh f] cs IH]; intros x cs' x' H u e l d w Hg Hx; cbn [set_x0] in H.
  - injection H as _ <-. now right.
  - assert (Hskip : forall y, (set_x0 gms cs y) = (tl cs', Some x') -> at3 y u e l = Some w -> (forall u' dofs vals, wh = SetX0 u' dofs vals -> u' = u -> ~ In d dofs) ->
      ((exists dofs vals i v, In (SetX0 u dofs vals) (map fst ((wh, f) :: cs)) /\ nth_error dofs i = Some d /\ nth_error vals i = Some v /\ at3 x' u e l = Some v) \/
       ((forall dofs vals, In (SetX0 u dofs vals) (map fst ((wh, f) :: cs)) -> ~ In d dofs) /\ at3 x' u e l = Some w))).
    { intros y Hy Hyw Hnot. destruct (IH _ _ _ Hy _ _ _ _ _ Hg Hyw) as [(dofs & vals & i & v & Hin & H1)|[H1 H2]].
      - left. exists dofs, vals, i, v. split; [now right|easy].
      - right. split; [|easy]. intros dofs vals [E|Hin]; [|now apply (H1 dofs vals)]. cbn [fst] in E. now apply (Hnot u dofs vals). }
    destruct wh as [uu dd|uu dofs vals|uu dd p|uu dd vv].
    1,3,4: (destruct (set_x0 gms cs x) as [r o] eqn:E; injection H as <- ->; apply (Hskip x); cbn [tl]; [now rewrite E|easy|intros; discriminate]).
    destruct (negb (f =? 0)); [discriminate|].
    destruct (nth_error x uu) as [xu|] eqn:Ex; [|discriminate]. destruct (nth_error gms uu) as [gm|] eqn:Eg; [|discriminate].
    destruct (put_dofs gm xu dofs vals) as [y|] eqn:Ep; [|discriminate].
    destruct (set_x0 gms cs (replace_nth x uu y)) as [r o] eqn:E. injection H as <- ->. cbn [tl] in Hskip.
    pose proof (at3_replace x uu y u e l xu Ex) as Hr.
    destruct (u =? uu) eqn:Eu.
    + apply Nat.eqb_eq in Eu. subst uu. unfold at3 in Hg, Hx. rewrite Eg in Hg. rewrite Ex in Hx.
      destruct (put_dofs_at _ _ _ _ _ Ep _ _ _ _ Hg Hx) as [(i & v & H1 & H2 & H3 & _)|[H1 H2]].
      * rewrite H3 in Hr. assert (Hg' : at3 gms u e l = Some d) by (unfold at3; now rewrite Eg).
        destruct (IH _ _ _ E _ _ _ _ _ Hg' Hr) as [(dofs' & vals' & i' & v' & Hin & K)|[K1 K2]].
        -- left. exists dofs', vals', i', v'. split; [now right|easy].
        -- left. exists dofs, vals, i, v. split; [now left|easy].
      * rewrite H2 in Hr. apply (Hskip (replace_nth x u y)); [easy|easy|].
        intros u' dofs' vals' Ew _. injection Ew as _ <- _. easy.
    + apply Nat.eqb_neq in Eu. rewrite Hx in Hr. apply (Hskip (replace_nth x uu y)); [easy|easy|].
      intros u' dofs' vals' Ew Hu. injection Ew as <- _ _. congruence.
Qed.
Lemma set_x0_single cs : forall x cs' x', set_x0 gms cs x = (cs', Some x') -> single_valued gms x -> single_valued gms x'.
Proof.
  induction cs as [|[wh f] cs IH]; intros x cs' x' H Hx; cbn [set_x0] in H.
  - now injection H as _ <-.
  - destruct wh as [uu dd|uu dofs vals|uu dd p|uu dd vv].
    1,3,4: (destruct (set_x0 gms cs x) as [r o] eqn:E; injection H as <- ->; now apply (IH x r)).
    destruct (negb (f =? 0)); [discriminate|].
    destruct (nth_error x uu) as [xu|] eqn:Ex; [|discriminate]. destruct (nth_error gms uu) as [gm|] eqn:Eg; [|discriminate].
    destruct (put_dofs gm xu dofs vals) as [y|] eqn:Ep; [|discriminate].
    destruct (set_x0 gms cs (replace_nth x uu y)) as [r o] eqn:E. injection H as <- ->. apply (IH _ _ _ E).
    intros u e l e' l' d H1 H2. rewrite !(at3_replace x uu y _ _ _ xu Ex). destruct (u =? uu) eqn:Eu; [|now apply Hx with d].
    apply Nat.eqb_eq in Eu. subst uu. pose proof (Hx _ _ _ _ _ _ H1 H2) as Hs. unfold at3 in Hs, H1, H2. rewrite Eg in H1, H2. rewrite Ex in Hs.
    destruct (at2 xu e l) as [w|] eqn:Ew.
    + symmetry in Hs. destruct (put_dofs_at _ _ _ _ _ Ep _ _ _ _ H1 Ew) as [(i & v & A1 & A2 & A3 & A4)|[A1 A2]];
        destruct (put_dofs_at _ _ _ _ _ Ep _ _ _ _ H2 Hs) as [(i' & v' & B1 & B2 & B3 & B4)|[B1 B2]].
      * assert (i = i'). { destruct (Nat.lt_trichotomy i i') as [L|[L|L]]; [now destruct (A4 i' L)|easy|now destruct (B4 i L)]. }
        subst i'. congruence.
      * destruct B1. apply (nth_error_In _ _ A1).
      * destruct A1. apply (nth_error_In _ _ B1).
      * congruence.
    + destruct (put_dofs_none _ _ _ _ _ Ep) as [_ Hn]. symmetry in Hs. apply Hn in Ew, Hs. congruence.
Qed.

(** ** the whole of Newton-Raphson *)
Lemma newton_unfold cs st x0 mm x k B j i : newton gms chain nrm lin atol m cs st x0 = (mm, Done x k B j i) ->
  exists cs1 x1, set_x0 gms cs x0 = (cs1, Some x1) /\ newton_loop gms chain nrm lin atol m (enough m) cs1 st x1 0 [] = (mm, Done x k B j i).
Proof.
  unfold newton. destruct (set_x0 gms cs x0) as [cs1 o]. destruct o as [x1|]; [|discriminate]. intros H. now exists cs1, x1.
Qed.
Lemma newton_ends cs st x0 : snd (newton gms chain nrm lin atol m cs st x0) <> Fuel.
Proof.
  unfold newton. destruct (set_x0 gms cs x0) as [cs1 o]. destruct o as [x1|]; [|easy]. apply newton_fuel.
  - unfold enough. destruct m; lia.
  - unfold enough, limit. destruct m; lia.
Qed.
Lemma picard_ends uniq cs st x0 : snd (picard_loop gms chain N nrm lin rep atol m uniq (enough m) cs st x0 0 []) <> Fuel.
Proof.
  apply picard_fuel.
  - unfold enough. destruct m; lia.
  - unfold enough, limit. destruct m; lia.
Qed.
Lemma stop_go_limit B k : stop B atol k m = Go -> (Z.of_nat k < limit m)%Z.
Proof. intros H. destruct (Z.lt_ge_cases (Z.of_nat k) (limit m)); [easy|]. now apply (stop_at_limit B atol) in H0. Qed.
Lemma newton_report cs st x0 mm x k B j i : newton gms chain nrm lin atol m cs st x0 = (mm, Done x k B j i) ->
  m_store mm = Some x /\ length B = k /\ 1 <= k /\ (Z.of_nat k <= Z.max 1 (limit m))%Z /\
  (forall n, 1 <= n < k -> stop (firstn n B) atol n m = Go) /\ stop B atol k m = Stop j i.
Proof.
  intros H. apply newton_unfold in H. destruct H as (cs1 & x1 & _ & H). apply newton_done in H; [|easy].
  destruct H as (Hs & _ & ys & _ & HB & Hk & Hl & Hgo & Hst). cbn [app Nat.add] in *. split; [easy|].
  split; [subst; now rewrite map_length|]. split; [lia|]. split; [|split; [|easy]].
  - destruct (Nat.eq_dec k 1) as [->|Hn]; [lia|]. specialize (Hgo (k - 1) ltac:(lia)). apply stop_go_limit in Hgo. lia.
  - intros n Hn. rewrite HB, firstn_map. apply Hgo. lia.
Qed.
Lemma newton_value cs st x0 mm x k B j i : newton gms chain nrm lin atol m cs st x0 = (mm, Done x k B j i) ->
  (forall w, In w (map fst cs) -> ~ is_SetX0 w) ->
  exists ys, B = map nrm ys /\ newton_path gms chain lin (map fst cs) x0 ys x /\
   forall u e l d v, at3 gms u e l = Some d -> at3 x0 u e l = Some v ->
     exists vs, omap (fun y => nth_error y (chain u d)) ys = Some vs /\ at3 x u e l = Some (v + qsum vs)%Qc.
Proof.
  intros H Hw. apply newton_unfold in H. destruct H as (cs1 & x1 & Hx & H).
  assert (x1 = x0).
  { clear H. revert x0 cs1 Hx. induction cs as [|[w f] cs IH]; intros x0 cs1 Hx; cbn [set_x0] in Hx; [now injection Hx as _ <-|].
    assert (Hr : forall w, In w (map fst cs) -> ~ is_SetX0 w) by (intros v Hv; apply Hw; now right).
    assert (~ is_SetX0 w) by (apply Hw; now left).
    destruct w; [| destruct H; now eexists _, _, _ | |]; destruct (set_x0 gms cs x0) as [r o] eqn:E; injection Hx as <- ->; now apply (IH Hr x0 r). }
  subst x1. pose proof (set_x0_fst _ _ _ _ _ Hx) as Ef. apply newton_done in H; [|easy].
  destruct H as (Hs & _ & ys & Hp & HB & Hk & Hl & Hgo & Hst). rewrite Ef in Hp. exists ys. split; [easy|]. split; [easy|].
  intros u e l d v. now apply (path_sum (map fst cs)).
Qed.
Lemma newton_single cs st x0 mm x k B j i : newton gms chain nrm lin atol m cs st x0 = (mm, Done x k B j i) -> single_valued gms x0 -> single_valued gms x.
Proof.
  intros H Hx. apply newton_unfold in H. destruct H as (cs1 & x1 & Hs & H). apply (set_x0_single _ _ _ _ Hs) in Hx.
  apply newton_done in H; [|easy]. destruct H as (_ & _ & ys & Hp & _). apply (path_single _ _ _ _ Hp Hx).
Qed.

(** ** solve *)
Notation solve' := (solve gms chain N nrm lin rep atol m).
Lemma solve_newton uniq h mm x0 mm' r : solve' uniq Newton h mm x0 = (mm', Some r) ->
  exists x k B j i, newton gms chain nrm lin atol m (m_cus mm ++ flat_map (unhold Newton) h) (m_store mm) x0 = (mm', Done x k B j i) /\
    r = (Local x, i, B) /\ (forall c, In c (m_cus mm ++ flat_map (unhold Newton) h) -> snd c = 0) /\ (forall c, In c (m_cus mm') -> snd c = 1).
Proof.
  unfold solve. cbn zeta. destruct (forallb no_effect _) eqn:E0; cbn [negb]; [|discriminate]. cbn [m_store].
  destruct (newton _ _ _ _ _ _ _ _ _) as [mm1 o] eqn:E. destruct o as [|x k B j i|]; try discriminate.
  destruct (forallb full_effect (m_cus mm1)) eqn:E1; [|discriminate]. intros H. injection H as <- <-.
  exists x, k, B, j, i. split; [easy|]. split; [easy|]. rewrite forallb_forall in E0, E1. split; intros c Hc.
  - apply E0 in Hc. now apply Nat.eqb_eq in Hc.
  - apply E1 in Hc. now apply Nat.eqb_eq in Hc.
Qed.
Lemma solve_picard uniq h mm x0 mm' r : solve' uniq Picard h mm x0 = (mm', Some r) ->
  exists x k B j i, picard_loop gms chain N nrm lin rep atol m uniq (enough m) (m_cus mm ++ flat_map (unhold Picard) h) (m_store mm) x0 0 [] = (mm', Done x k B j i) /\
    r = (Global x, i, B) /\ (forall c, In c (m_cus mm ++ flat_map (unhold Picard) h) -> snd c = 0) /\ (forall c, In c (m_cus mm') -> snd c = 1).
Proof.
  unfold solve. cbn zeta. destruct (forallb no_effect _) eqn:E0; cbn [negb]; [|discriminate]. cbn [m_store].
  destruct (picard_loop _ _ _ _ _ _ _ _ _ _ _ _ _ _ _) as [mm1 o] eqn:E. destruct o as [|x k B j i|]; try discriminate.
  destruct (forallb full_effect (m_cus mm1)) eqn:E1; [|discriminate]. intros H. injection H as <- <-.
  exists x, k, B, j, i. split; [easy|]. split; [easy|]. rewrite forallb_forall in E0, E1. split; intros c Hc.
  - apply E0 in Hc. now apply Nat.eqb_eq in Hc.
  - apply E1 in Hc. now apply Nat.eqb_eq in Hc.
Qed.
Lemma solve_store uniq s h mm x0 mm' a i B : solve' uniq s h mm x0 = (mm', Some (a, i, B)) ->
  match a with Local x => s = Newton /\ m_store mm' = Some x | Global x => s = Picard /\ exists xl, m_store mm' = Some xl /\ distributed gms chain x xl end.
Proof.
  destruct s; intros H.
  - apply solve_newton in H. destruct H as (x & k & B' & j & i' & H & E & _). injection E as -> -> ->. split; [easy|]. now apply newton_report in H.
  - apply solve_picard in H. destruct H as (x & k & B' & j & i' & H & E & _). injection E as -> -> ->. split; [easy|].
    apply picard_done in H; [|easy]. destruct H as (_ & _ & ys & y & xf & ds & Hs & Hd & _). now exists xf.
Qed.
Lemma solve_keeps uniq s h mm x0 mm' r : solve' uniq s h mm x0 = (mm', Some r) -> map fst (m_cus mm') = map fst (m_cus mm ++ flat_map (unhold s) h) /\ (forall c, In c (m_cus mm') -> snd c = 1).
Proof.
  destruct s; intros H.
  - apply solve_newton in H. destruct H as (x & k & B' & j & i' & H & _ & _ & H1). split; [|easy].
    apply newton_unfold in H. destruct H as (cs1 & x1 & Hx & H). apply newton_done in H; [|easy].
    destruct H as (_ & -> & _). now apply (set_x0_fst _ _ _ _ _ Hx).
  - apply solve_picard in H. destruct H as (x & k & B' & j & i' & H & _ & _ & H1). split; [|easy].
    apply picard_done in H; [|easy]. easy.
Qed.
(** a customization that has taken effect makes every later solve fail *)
Lemma solve_used uniq s h mm x0 c : In c (m_cus mm) -> snd c <> 0 -> snd (solve' uniq s h mm x0) = None.
Proof.
  intros Hin Hc. unfold solve. cbn zeta. destruct (forallb no_effect _) eqn:E0; cbn [negb]; [|easy].
  rewrite forallb_forall in E0. specialize (E0 c). rewrite in_app_iff in E0. specialize (E0 (or_introl Hin)). now apply Nat.eqb_eq in E0.
Qed.
(** ** boundary conditions *)
Lemma newton_boundary uniq h x0 st mm' x i B : solve' uniq Newton h {| m_cus := []; m_store := st |} x0 = (mm', Some (Local x, i, B)) ->
  respects_fixed chain lin -> fits gms x0 ->
  forall u d v, prescribed h u d v -> (forall v', prescribed h u d v' -> v' = v) ->
  forall e l, at3 gms u e l = Some d -> at3 x u e l = Some v.
Proof.
  intros H Hr Hf u d v (dofs & vals & k & Hin & Hd & Hv) Huniq e l Hg.
  apply solve_newton in H. cbn [m_cus m_store app] in H. destruct H as (x' & k' & B' & j & i' & H & E & _). injection E as <- <- <-.
  apply newton_unfold in H. destruct H as (cs1 & x1 & Hx & H). pose proof (set_x0_fst _ _ _ _ _ Hx) as Ef.
  apply newton_done in H; [|easy]. destruct H as (_ & _ & ys & Hp & _).
  destruct (at3 x0 u e l) as [w|] eqn:Ew; [|apply Hf in Ew; congruence].
  assert (HF : In (Fixed u dofs) (map fst (flat_map (unhold Newton) h))).
  { apply in_map_iff. exists (Fixed u dofs, 0). split; [easy|]. apply in_flat_map. exists (u, dofs, vals). split; [easy|]. now left. }
  assert (HS : In (SetX0 u dofs vals) (map fst (flat_map (unhold Newton) h))).
  { apply in_map_iff. exists (SetX0 u dofs vals, 0). split; [easy|]. apply in_flat_map. exists (u, dofs, vals). split; [easy|]. right. now left. }
  apply (path_fixed _ _ _ _ Hp Hr u dofs d); [now rewrite Ef|apply (nth_error_In _ _ Hd)|easy|].
  destruct (set_x0_at _ _ _ _ Hx _ _ _ _ _ Hg Ew) as [(dofs' & vals' & i2 & v' & Hin' & Hd' & Hv' & Hat)|[Hno _]].
  - rewrite Hat. f_equal. apply Huniq. exists dofs', vals', i2. split; [|easy].
    apply in_map_iff in Hin'. destruct Hin' as ([w' f] & Ew' & Hin'). cbn [fst] in Ew'. subst w'. apply in_flat_map in Hin'.
    destruct Hin' as ([[u2 d2] v2] & Hh & [E|[E|[]]]); [discriminate|]. injection E as <- <- <- _. easy.
  - destruct (Hno _ _ HS). apply (nth_error_In _ _ Hd).
Qed.
Lemma picard_path_last ws x ys y xf x' : picard_path gms chain lin ws x ys xf -> ys = y ++ [x'] -> exists prev raw, lin prev ws = Some raw /\ solution ws raw x' /\ distributed gms chain x' xf.
Proof.
  intros Hp. revert y. induction Hp as [x|x raw z x1 ys xf Hl Hs Hd Hp IH]; intros y E; [now destruct y|].
  destruct y as [|z' y]; cbn [app] in E.
  - injection E as -> ->. inversion Hp; subst. now exists x, raw.
  - injection E as _ ->. now apply (IH y).
Qed.
Lemma picard_boundary uniq h x0 st mm' x i B : solve' uniq Picard h {| m_cus := []; m_store := st |} x0 = (mm', Some (Global x, i, B)) ->
  imposes chain lin -> forall u d v, prescribed h u d v -> forall e l, at3 gms u e l = Some d ->
  nth_error x (chain u d) = Some v /\ exists xl, m_store mm' = Some xl /\ at3 xl u e l = Some v.
Proof.
  intros H Hi u d v (dofs & vals & k & Hin & Hd & Hv) e l Hg.
  apply solve_picard in H. cbn [m_cus m_store app] in H. destruct H as (x' & k' & B' & j & i' & H & E & _). injection E as <- <- <-.
  apply picard_done in H; [|easy]. destruct H as (_ & _ & ys & y & xf & ds & Hst & [Hf Hdi] & Ey & Hp & _).
  destruct (picard_path_last _ _ _ _ _ _ Hp Ey) as (prev & raw & Hl & Hs & _).
  specialize (Hdi u e l). rewrite Hg in Hdi. destruct (nth_error x (chain u d)) as [b|] eqn:Eb; [|apply Hf in Hdi; congruence].
  assert (b = v).
  { apply (Hi _ _ _ u dofs vals k d v b Hl); [|easy|easy|now apply (solution_nth _ _ _ _ _ Hs)].
    apply in_map_iff. exists (SetDofs u dofs vals, 0). split; [easy|]. apply in_flat_map. exists (u, dofs, vals). split; [easy|]. now left. }
  subst b. split; [easy|]. now exists xf.
Qed.
End Main.
