From Coq Require Import List ZArith QArith Qcanon Bool Lia Arith.
From Verif Require Import Dict MgModel MgSpec MgProofs.
Import ListNotations.
Local Open Scope Z_scope.

Lemma steps_nested f : forall l, nested (steps l f).
Proof. induction f as [|s IHs r IHr]; intros l; cbn [steps]; constructor; auto. Qed.
Lemma full_good fs : forall l, good (full_steps l fs).
Proof. induction fs as [|f fs IH]; intros l; cbn [full_steps]; [apply nested_good; constructor|]. change (IS l :: ?x) with ([IS l] ++ x). apply good_app; [apply good_I|]. apply good_app; auto. apply nested_good, steps_nested. Qed.
Lemma clean_at_length {X} (l : list (option X)) : forall i, length (clean_at l i) = length l.
Proof. induction l; intros [|i]; cbn; auto. Qed.
Lemma clean_at_other {X} (l : list (option X)) : forall i j, i <> j -> nth_error (clean_at l i) j = nth_error l j.
Proof. induction l as [|x l IH]; intros [|i] [|j] H; cbn; auto; try congruence; apply IH; congruence. Qed.
Lemma hset_length {V} (h : list V) : forall a v, length (hset h a v) = length h.
Proof. induction h as [|y h IH]; intros [|a] v; cbn; auto. Qed.
Lemma hset_other {V} (h : list V) : forall a v b, a <> b -> nth_error (hset h a v) b = nth_error h b.
Proof. induction h as [|x h IH]; intros [|a] v [|b] H; cbn; auto; try congruence; apply IH; congruence. Qed.
Lemma hset_same {V} (h : list V) : forall a v x, nth_error h a = Some x -> nth_error (hset h a v) a = Some v.
Proof. induction h as [|y h IH]; intros [|a] v x H; cbn in *; try discriminate; eauto. Qed.
Lemma nth_Some_lt {X} (l : list X) i x : nth_error l i = Some x -> (i < length l)%nat.
Proof. intros H. apply nth_error_Some. congruence. Qed.

Section Solve.
  Context {V : Type} (add sub : V -> V -> V) (A : Z -> V -> V) (b : Z -> V) (down up : Z -> V -> V) (direct : Z -> V -> V) (iter : Z -> V -> V -> V) (zero : Z -> V).
  Variable clean : bool.
  Variable w : list step.
  Variable d : dict nat (option nat).
  Hypothesis Hd : pairs w = Some d.
  Notation loop := (mloop add sub A b down up direct iter zero clean w d).
  Notation corr := (corrected add sub A down up direct iter zero).
  Lemma clean_unpaired_keep ks : forall (ios : list (option (@io V))),
    let f := fold_left (fun ios s => match nth_error w s with Some (IS _) => match get Nat.eqb d s with Some None => clean_at ios s | _ => ios end | _ => ios end) ks ios in
    length f = length ios /\ forall r l, nth_error w r = Some (RS l) -> nth_error f r = nth_error ios r.
  Proof.
    induction ks as [|k ks IH]; intros ios; cbn [fold_left]; [auto|].
    assert (S : let g := match nth_error w k with Some (IS _) => match get Nat.eqb d k with Some None => clean_at ios k | _ => ios end | _ => ios end in length g = length ios /\ forall r l, nth_error w r = Some (RS l) -> nth_error g r = nth_error ios r).
    { cbn zeta. destruct (nth_error w k) as [[l|l]|] eqn:E; auto. destruct (get Nat.eqb d k) as [[x|]|]; auto. split; [apply clean_at_length|]. intros r l' Hr. apply clean_at_other. intros ->. congruence. }
    cbn zeta in S, IH. destruct S as [S1 S2]. destruct (IH (match nth_error w k with Some (IS _) => match get Nat.eqb d k with Some None => clean_at ios k | _ => ios end | _ => ios end)) as [I1 I2]. split; [congruence|]. intros r l Hr. rewrite (I2 r l Hr). eauto.
  Qed.
  Definition kept (s : nat) (st st' : @mstate V) : Prop := forall r l, (r < s)%nat -> nth_error w r = Some (RS l) -> nth_error (mios st') r = nth_error (mios st) r.
  Lemma segment f : forall l p q st a x rhs, w = p ++ steps l f ++ q -> length (mios st) = length p -> nth_error (mheap st) a = Some x ->
    exists st', loop st (length p) (steps l f ++ q) {| t_x := a; t_err := sub (A l x) rhs; t_rhs := Some rhs |} =
                loop st' (length p + length (steps l f)) q {| t_x := a; t_err := sub (A l (corr f l x rhs)) rhs; t_rhs := Some rhs |} /\
      nth_error (mheap st') a = Some (corr f l x rhs) /\ length (mios st') = (length p + length (steps l f))%nat /\ kept (length p) st st' /\
      (length (mheap st) <= length (mheap st'))%nat /\ forall c, (c < length (mheap st))%nat -> c <> a -> nth_error (mheap st') c = nth_error (mheap st) c.
  Proof.
    induction f as [|sb IHs r IHr]; intros l p q st a x rhs Hw Hl Ha.
    - cbn [steps app length corrected]. rewrite Nat.add_0_r. exists st. repeat split; auto.
    - cbn [steps app corrected] in *. set (rhs' := down l (sub (A l x) rhs)). set (y := if l - 1 =? 0 then direct (l - 1) rhs' else iter (l - 1) rhs' (zero (l - 1))).
      (* the restriction *)
      cbn [mloop mstep t_err t_x t_rhs mheap]. fold rhs'. fold y. set (h := mheap st) in *.
      set (io0 := {| io_in := {| t_x := a; t_err := sub (A l x) rhs; t_rhs := Some rhs |}; io_out := {| t_x := length h; t_err := sub (A (l - 1) y) rhs'; t_rhs := Some rhs' |} |}).
      set (st1 := {| mheap := h ++ [y]; mios := if clean && fresh_unpaired st then clean_unpaired w d (mios st ++ [Some io0]) else mios st ++ [Some io0]; fresh_unpaired := if clean && fresh_unpaired st then false else fresh_unpaired st |}).
      assert (Wr : nth_error w (length p) = Some (RS l)) by (rewrite Hw, nth_error_app2, Nat.sub_diag by lia; reflexivity).
      assert (S1 : length (mios st1) = S (length p) /\ nth_error (mios st1) (length p) = Some (Some io0) /\ kept (length p) st st1).
      { assert (B : length (mios st ++ [Some io0]) = S (length p) /\ nth_error (mios st ++ [Some io0]) (length p) = Some (Some io0) /\ forall r0 l0, (r0 < length p)%nat -> nth_error w r0 = Some (RS l0) -> nth_error (mios st ++ [Some io0]) r0 = nth_error (mios st) r0).
        { rewrite app_length, Hl. cbn [length]. split; [lia|]. split; [rewrite nth_error_app2, <- Hl, Nat.sub_diag by lia; reflexivity|]. intros r0 l0 Hlt _. apply nth_error_app1. lia. }
        unfold st1. cbn [mios]. destruct (clean && fresh_unpaired st); auto. destruct (clean_unpaired_keep (seq 0 (length (mios st ++ [Some io0]))) (mios st ++ [Some io0])) as [K1 K2]. unfold clean_unpaired. destruct B as (B1 & B2 & B3). split; [cbn zeta in K1; rewrite K1; exact B1|]. split.
        - rewrite (K2 _ _ Wr). exact B2.
        - intros r0 l0 Hlt Hr0. cbn [mios]. rewrite (K2 _ _ Hr0). eauto. }
      destruct S1 as (L1 & N1 & K1). rewrite N1. unfold io0 at 1. cbn [io_out].
      (* below *)
      assert (Ly : nth_error (mheap st1) (length h) = Some y) by (unfold st1; cbn [mheap]; rewrite nth_error_app2, Nat.sub_diag by lia; reflexivity).
      assert (Hw1 : w = (p ++ [RS l]) ++ steps (l - 1) sb ++ IS (l - 1) :: steps l r ++ q) by (rewrite Hw; repeat (rewrite <- app_assoc; cbn [app]); reflexivity).
      destruct (IHs (l - 1) (p ++ [RS l]) (IS (l - 1) :: steps l r ++ q) st1 (length h) y rhs' Hw1 ltac:(rewrite app_length; cbn [length]; lia) Ly) as (st2 & E2 & H2 & L2 & K2 & G2 & F2).
      rewrite app_length in E2, L2. cbn [length] in E2, L2. replace (length p + 1)%nat with (S (length p)) in E2, L2 by lia. rewrite <- app_assoc. cbn [app]. rewrite E2. set (dx := corr sb (l - 1) y rhs') in *. set (n := length (steps (l - 1) sb)) in *.
      (* the interpolation *)
      destruct (pairs_spec w d Hd) as [P1 P2].
      assert (M : get Nat.eqb d (S (length p) + n)%nat = Some (Some (length p))).
      { apply P1. exists p, l, (steps (l - 1) sb), (l - 1), (steps l r ++ q). rewrite <- app_assoc in Hw. cbn [app] in Hw. split; [exact Hw|]. split; [apply steps_nested|]. split; auto. unfold n. lia. }
      assert (N2 : nth_error (mios st2) (length p) = Some (Some io0)) by (rewrite (K2 (length p) l); [exact N1|rewrite app_length; cbn [length]; lia|exact Wr]).
      assert (La : (a < length h)%nat) by (eapply nth_Some_lt; eauto).
      assert (Ha2 : nth_error (mheap st2) a = Some x).
      { rewrite F2; [unfold st1; cbn [mheap]; rewrite nth_error_app1 by auto; exact Ha|unfold st1; cbn [mheap]; rewrite app_length; cbn; lia|lia]. }
      cbn [mloop mstep]. rewrite M. cbn [t_x]. rewrite H2, N2. unfold io0 at 1 2 3. cbn [io_in t_x t_rhs]. rewrite Ha2. replace (l - 1 + 1) with l by lia. set (x' := add x (up (l - 1) dx)). cbn [mios].
      set (io1 := {| io_in := _; io_out := _ |}). set (ios := if clean then _ else _).
      assert (Li : length ios = (S (length p) + n)%nat) by (unfold ios; destruct clean; rewrite ?clean_at_length; auto).
      assert (Ki : forall r0, (r0 < length p)%nat -> nth_error ios r0 = nth_error (mios st2) r0) by (intros r0 Hr0; unfold ios; destruct clean; auto; rewrite !clean_at_other by lia; reflexivity).
      replace (nth_error (ios ++ [Some io1]) (S (length p) + n)%nat) with (Some (Some io1)) by (rewrite <- Li, nth_error_app2, Nat.sub_diag by lia; reflexivity).
      
      (* the rest *)
      set (st3 := {| mheap := hset (mheap st2) a x'; mios := ios ++ [Some io1]; fresh_unpaired := fresh_unpaired st2 |}).
      set (pp := p ++ RS l :: steps (l - 1) sb ++ [IS (l - 1)]).
      assert (Lp : length pp = S (S (length p) + n)%nat) by (unfold pp; rewrite app_length; cbn [length]; rewrite app_length; cbn [length]; unfold n; lia).
      assert (Hw3 : w = pp ++ steps l r ++ q) by (unfold pp; rewrite Hw; repeat (rewrite <- app_assoc; cbn [app]); reflexivity).
      destruct (IHr l pp q st3 a x' rhs Hw3) as (st4 & E4 & H4 & L4 & K4 & G4 & F4).
      { unfold st3. cbn [mios]. rewrite app_length, Li, Lp. cbn. lia. }
      { unfold st3. cbn [mheap]. eapply hset_same; eauto. }
      rewrite Lp in E4, L4. exists st4. split; [|split; [|split; [|split; [|split]]]].
      + change (io_out io1) with {| t_x := a; t_err := sub (A l x') rhs; t_rhs := Some rhs |}. rewrite E4. f_equal. cbn [length]. rewrite app_length. cbn [length]. fold n. lia.
      + exact H4.
      + rewrite L4. cbn [length]. rewrite app_length. cbn [length]. fold n. lia.
      + intros r0 l0 Hr0 Hr1. rewrite (K4 r0 l0) by (auto; rewrite Lp; lia). unfold st3. cbn [mios]. rewrite nth_error_app1 by lia. rewrite Ki by auto. rewrite (K2 r0 l0) by (auto; rewrite app_length; cbn; lia). apply (K1 r0 l0); auto.
      + unfold st3 in G4. cbn [mheap] in G4. rewrite hset_length in G4. unfold st1 in G2. cbn [mheap] in G2. rewrite app_length in G2. cbn in G2. fold h. lia.
      + fold h. unfold st1 in G2, F2. cbn [mheap] in G2, F2. rewrite app_length in G2, F2. cbn [length] in G2, F2. intros c Hc Hn. rewrite F4; [|unfold st3; cbn [mheap]; rewrite hset_length; lia|exact Hn]. unfold st3. cbn [mheap]. rewrite hset_other by congruence. rewrite F2 by lia. rewrite nth_error_app1 by lia. reflexivity.
  Qed.
  Lemma full_segment fs : forall l p st inp x, w = p ++ full_steps l fs -> good p -> length (mios st) = length p -> nth_error (mheap st) (t_x inp) = Some x ->
    exists st' out, loop st (length p) (full_steps l fs) inp = Some (st', out) /\ nth_error (mheap st') (t_x out) = Some (full_corrected add sub A b down up direct iter zero fs l x).
  Proof.
    induction fs as [|f fs IH]; intros l p st inp x Hw Hg Hl Hx; [cbn; eauto|]. cbn [full_steps full_corrected]. cbn [mloop mstep]. destruct (pairs_spec w d Hd) as [P1 P2].
    assert (M : get Nat.eqb d (length p) = Some None).
    { apply P2. rewrite Hw. cbn [full_steps]. split; [exists l; rewrite nth_error_app2, Nat.sub_diag by lia; reflexivity|]. intros r. apply good_no_match. exact Hg. }
    rewrite M, Hx. cbn [mios]. rewrite nth_error_app2, Hl, Nat.sub_diag by lia. cbn [nth_error io_out]. set (x1 := iter (l + 1) (b (l + 1)) (up l x)). set (st1 := {| mheap := mheap st ++ [x1]; mios := _; fresh_unpaired := true |}).
    assert (Hw1 : w = (p ++ [IS l]) ++ steps (l + 1) f ++ full_steps (l + 1) fs) by (rewrite Hw; cbn [full_steps]; rewrite <- app_assoc; reflexivity).
    destruct (segment f (l + 1) (p ++ [IS l]) (full_steps (l + 1) fs) st1 (length (mheap st)) x1 (b (l + 1)) Hw1) as (st2 & E2 & H2 & L2 & _).
    { unfold st1. cbn [mios]. rewrite !app_length. cbn [length]. lia. }
    { unfold st1. cbn [mheap]. rewrite nth_error_app2, Nat.sub_diag by lia. reflexivity. }
    rewrite app_length in E2, L2. cbn [length] in E2, L2. replace (length p + 1)%nat with (S (length p)) in E2, L2 by lia. rewrite E2.
    destruct (IH (l + 1) ((p ++ [IS l]) ++ steps (l + 1) f) st2 {| t_x := length (mheap st); t_err := sub (A (l + 1) (corr f (l + 1) x1 (b (l + 1)))) (b (l + 1)); t_rhs := Some (b (l + 1)) |} (corr f (l + 1) x1 (b (l + 1)))) as (st3 & out & E3 & H3).
    { rewrite <- app_assoc. exact Hw1. }
    { apply good_app; [apply good_app; auto; apply good_I|]. apply nested_good, steps_nested. }
    { rewrite !app_length. cbn [length]. rewrite L2. lia. }
    { exact H2. }
    rewrite !app_length in E3. cbn [length] in E3. replace (length p + 1 + length (steps (l + 1) f))%nat with (S (length p) + length (steps (l + 1) f))%nat in E3 by lia. exists st3, out. split; auto.
  Qed.
End Solve.

Section Theorems.
  Context {V : Type} (add sub : V -> V -> V) (A : Z -> V -> V) (b : Z -> V) (down up : Z -> V -> V) (direct : Z -> V -> V) (iter : Z -> V -> V -> V) (zero : Z -> V).
  Notation solve := (msolve add sub A b down up direct iter zero).
  Lemma last_step w a e : walk a w = Some e -> Forall (fun v => v <= e) (visited a w) -> w <> [] -> exists q, rev w = IS (e - 1) :: q.
  Proof.
    intros H F Hn. destruct (exists_last Hn) as (q & x & ->). rewrite rev_app_distr. cbn. rewrite walk_app in H. destruct (walk a q) as [c|] eqn:E; [|discriminate]. destruct x as [l|l]; cbn [walk] in H; destruct (l =? c) eqn:El; try discriminate; apply Z.eqb_eq in El as ->; injection H as <-.
    - exfalso. assert (In c (visited a (q ++ [RS c]))).
      { apply visited_app_l. clear -E. revert a E. induction q as [|[l|l] q IH]; intros a; cbn [walk visited]; [intros [= ->]; now left| |]; (destruct (l =? a); [|discriminate]); intros E; right; auto. }
      rewrite Forall_forall in F. specialize (F c H). cbn beta in F. lia.
    - exists (rev q). f_equal. f_equal. lia.
  Qed.
  Lemma solve_corrections clean f top x0 : f <> Done -> solve clean (steps top f) top x0 = Some (corrected add sub A down up direct iter zero f top (iter top (b top) x0) (b top)).
  Proof.
    intros Hf. unfold msolve. destruct f as [|sb r]; [congruence|]. set (f := Then sb r) in *. assert (Hn : steps top f <> []) by discriminate.
    pose proof (walk_steps f top) as Hwk. assert (Fv : Forall (fun v => v <= top) (visited top (steps top f))) by (eapply Forall_impl; [|apply visited_steps]; cbn beta; intros; lia).
    destruct (last_step _ _ _ Hwk Fv Hn) as (q & ->). replace (top - 1 + 1) with top by lia. rewrite Z.eqb_refl. cbn [negb].
    destruct (pairs (steps top f)) as [d|] eqn:Ed; [|exfalso; apply (proj2 (pairs_defined _ _ _ Hwk) Fv Ed)].
    replace (steps top f) with (RS top :: steps (top - 1) sb ++ IS (top - 1) :: steps top r) at 1 by reflexivity. cbn [first_input]. rewrite Z.eqb_refl. set (x := iter top (b top) x0).
    destruct (segment add sub A b down up direct iter zero clean (steps top f) d Ed f top [] [] {| mheap := [x]; mios := []; fresh_unpaired := false |} 0 x (b top)) as (st & E & H & _); cbn [app length]; rewrite ?app_nil_r; auto.
    cbn [app length] in E. rewrite app_nil_r in E. cbn [app]. rewrite E. cbn [mloop t_x]. exact H.
  Qed.
  Lemma solve_full clean fs x0 : fs <> [] -> solve clean (full_steps 0 fs) (Z.of_nat (length fs)) x0 = Some (full_corrected add sub A b down up direct iter zero fs 0 (direct 0 (b 0))).
  Proof.
    intros Hf. unfold msolve. destruct fs as [|f fr]; [congruence|]. set (fs := f :: fr) in *. assert (Hn : full_steps 0 fs <> []) by discriminate.
    pose proof (walk_full fs 0) as Hwk. rewrite Z.add_0_l in Hwk. pose proof (Forall_visited_full fs 0 (Z.of_nat (length fs)) ltac:(lia)) as Fv.
    destruct (last_step _ _ _ Hwk Fv Hn) as (q & ->). replace (Z.of_nat (length fs) - 1 + 1) with (Z.of_nat (length fs)) by lia. rewrite Z.eqb_refl. cbn [negb].
    destruct (pairs (full_steps 0 fs)) as [d|] eqn:Ed; [|exfalso; apply (proj2 (pairs_defined _ _ _ Hwk) Fv Ed)].
    replace (full_steps 0 fs) with (IS 0 :: steps (0 + 1) f ++ full_steps (0 + 1) fr) at 1 by reflexivity. cbn [first_input Z.eqb]. set (x := direct 0 (b 0)).
    destruct (full_segment add sub A b down up direct iter zero clean (full_steps 0 fs) d Ed fs 0 [] {| mheap := [x]; mios := []; fresh_unpaired := false |} {| t_x := 0; t_err := sub (A 0 x) (b 0); t_rhs := None |} x) as (st & out & E & H); cbn [app length]; auto.
    { intros [|? ?] [|? ?]; try discriminate. cbn. lia. }
    cbn [length] in E. cbn [app]. rewrite E. exact H.
  Qed.
  (** all schedules that start on the top layer; on the bottom layer *)
  Lemma solve_top clean w top x0 : walk top w = Some top -> Forall (fun v => v <= top) (visited top w) -> w <> [] ->
    exists f, w = steps top f /\ solve clean w top x0 = Some (corrected add sub A down up direct iter zero f top (iter top (b top) x0) (b top)).
  Proof.
    intros H F Hn. destruct (decompose w top top H F) as (f & fs & -> & L). destruct fs; [|cbn [length] in L; lia]. cbn [full_steps] in *. rewrite app_nil_r in *. exists f. split; auto. apply solve_corrections. intros ->. apply Hn. reflexivity.
  Qed.
  Lemma solve_bottom clean w top x0 : walk 0 w = Some top -> Forall (fun v => 0 <= v <= top) (visited 0 w) -> 0 < top ->
    exists fs, w = full_steps 0 fs /\ Z.of_nat (length fs) = top /\ solve clean w top x0 = Some (full_corrected add sub A b down up direct iter zero fs 0 (direct 0 (b 0))).
  Proof.
    intros H F Hp. assert (F1 : Forall (fun v => v <= top) (visited 0 w)) by (eapply Forall_impl; [|exact F]; cbn beta; intros; lia). destruct (decompose w 0 top H F1) as (f & fs & -> & L). cbn in L.
    destruct f as [|sb r]; [|exfalso; cbn [steps app visited] in F; rewrite Forall_forall in F; assert (X : In (-1) (visited 0 (RS 0 :: (steps (0 - 1) sb ++ IS (0 - 1) :: steps 0 r) ++ full_steps 0 fs))) by (cbn [visited]; right; destruct ((steps (0 - 1) sb ++ IS (0 - 1) :: steps 0 r) ++ full_steps 0 fs) as [|[?|?] ?]; now left); specialize (F _ X); cbn beta in F; lia].
    exists fs. split; auto. split; auto. cbn [steps app]. rewrite <- L. apply solve_full. intros ->. cbn in L. lia.
  Qed.
  (** the sign of the correction: equal layers, exact transfers, an exact solve below *)
  Lemma two_layers_double clean x0 :
    (forall x y, A 1 (add x y) = add (A 1 x) (A 1 y)) -> (forall x y z, sub (add x y) z = add (sub x z) y) -> (forall x, A 0 x = A 1 x) -> (forall x, down 1 x = x) -> (forall x, up 0 x = x) -> (forall r, A 0 (direct 0 r) = r) ->
    let x := iter 1 (b 1) x0 in exists x', solve clean (parse_V 2) 1 x0 = Some x' /\ sub (A 1 x') (b 1) = add (sub (A 1 x) (b 1)) (sub (A 1 x) (b 1)).
  Proof.
    intros H1 H2 H3 H4 H5 H6 x. rewrite (parse_V_steps 1). change (Z.of_nat 1) with 1. rewrite solve_corrections by discriminate. eexists. split; [reflexivity|]. cbn [vform corrected]. change (1 - 1) with 0. cbn [Z.eqb]. fold x. rewrite H4, H5, H1, H2. f_equal. rewrite <- H3. apply H6.
  Qed.
End Theorems.
Lemma cleaning {V : Type} (add sub : V -> V -> V) (A : Z -> V -> V) (b : Z -> V) (down up : Z -> V -> V) (direct : Z -> V -> V) (iter : Z -> V -> V -> V) (zero : Z -> V) w top x0 :
  (walk top w = Some top /\ Forall (fun v => v <= top) (visited top w) /\ w <> []) \/ (walk 0 w = Some top /\ Forall (fun v => 0 <= v <= top) (visited 0 w) /\ 0 < top) ->
  msolve add sub A b down up direct iter zero true w top x0 = msolve add sub A b down up direct iter zero false w top x0.
Proof.
  intros [(H1 & H2 & H3)|(H1 & H2 & H3)].
  - destruct (decompose w top top H1 H2) as (f & fs & -> & L). destruct fs; [|cbn [length] in L; lia]. cbn [full_steps] in *. rewrite app_nil_r in *. rewrite !solve_corrections; auto; intros ->; apply H3; reflexivity.
  - destruct (solve_bottom add sub A b down up direct iter zero true w top x0 H1 H2 H3) as (fs & -> & L & ->). rewrite <- L. rewrite solve_full; auto. intros ->. cbn in L. lia.
Qed.
Lemma sign_instance : exists (A direct : Z -> Qc -> Qc) (x0 : Qc),
  (forall r, A 0 (direct 0 r) = r) /\ (forall x, A 0 x = A 1 x) /\
  msolve Qcplus Qcminus A (fun _ => Q2Qc 6) (fun _ x => x) (fun _ x => x) direct (fun _ _ x => x) (fun _ => 0%Qc) false (parse_V 2) 1 x0 = Some (Q2Qc 5) /\
  (A 1%Z x0 - Q2Qc 6 = Q2Qc 2)%Qc /\ (A 1%Z (Q2Qc 5) - Q2Qc 6 = Q2Qc 4)%Qc.
Proof.
  exists (fun _ x => (Q2Qc 2 * x)%Qc), (fun _ r => (r / Q2Qc 2)%Qc), (Q2Qc 4). split; [intros r; apply Qcmult_div_r; discriminate|]. split; [reflexivity|]. rewrite (parse_V_steps 1). change (Z.of_nat 1) with 1. rewrite solve_corrections by discriminate. split; [|split; apply Qc_is_canon; reflexivity]. f_equal; apply Qc_is_canon; reflexivity.
Qed.
