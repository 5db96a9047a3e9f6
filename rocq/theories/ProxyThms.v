(** Proofs about algebraic and matrix proxies: values of terms, sorting, parsing, the linear system. *)
From Coq Require Import Ascii String Reals Bool Arith List Lia Lra.
From Verif Require Import WfModel ProxyModel ProxySpec.
Import ListNotations.
Local Open Scope R_scope.

(* ---------------------------------------------------------------- sums *)

Lemma sumto_ext n f g : (forall k, (k < n)%nat -> f k = g k) -> sumto n f = sumto n g.
Proof. induction n; intro H; cbn; [reflexivity|]. rewrite IHn by (intros; apply H; lia). rewrite H by lia. reflexivity. Qed.
Lemma sumto_add n f g : sumto n (fun k => f k + g k) = sumto n f + sumto n g.
Proof. induction n; cbn; [lra|]. rewrite IHn. lra. Qed.
Lemma sumto_scal n a f : sumto n (fun k => a * f k) = a * sumto n f.
Proof. induction n; cbn; [lra|]. rewrite IHn. lra. Qed.
Lemma sumto_scal_r n a f : sumto n (fun k => f k * a) = sumto n f * a.
Proof. induction n; cbn; [lra|]. rewrite IHn. lra. Qed.
Lemma sumto_zero n : sumto n (fun _ => 0) = 0.
Proof. induction n; cbn; [reflexivity|]. rewrite IHn. lra. Qed.
Lemma sumto_swap n m (f : nat -> nat -> R) : sumto n (fun p => sumto m (fun q => f p q)) = sumto m (fun q => sumto n (fun p => f p q)).
Proof.
  induction n; cbn.
  - rewrite sumto_zero. reflexivity.
  - rewrite IHn, <- sumto_add. reflexivity.
Qed.
Lemma sumto_delta n p f : (p < n)%nat -> sumto n (fun k => (if (p =? k)%nat then 1 else 0) * f k) = f p.
Proof.
  induction n; intro H; [lia|]. cbn.
  destruct (Nat.eq_dec p n) as [->|N].
  - rewrite Nat.eqb_refl. rewrite (sumto_ext n _ (fun _ => 0)).
    + rewrite sumto_zero. lra.
    + intros k Hk. destruct (Nat.eqb_spec n k); [lia|lra].
  - rewrite IHn by lia. destruct (Nat.eqb_spec p n); [lia|lra].
Qed.
Lemma sumlist_app {A} (f : A -> R) l r : sumlist f (l ++ r) = sumlist f l + sumlist f r.
Proof. induction l; cbn; [lra|]. rewrite IHl. lra. Qed.
Lemma sumlist_ext {A} (f g : A -> R) l : (forall x, In x l -> f x = g x) -> sumlist f l = sumlist g l.
Proof. induction l; intro H; cbn; [reflexivity|]. rewrite H by (left; reflexivity). rewrite IHl; [reflexivity|]. intros; apply H; right; assumption. Qed.

(** a^T M b, nested either way *)
Lemma bil_in n m (a : nat -> R) (M : nat -> nat -> R) (b : nat -> R) :
  sumto n (fun p => a p * sumto m (fun q => M p q * b q)) = sumto n (fun p => sumto m (fun q => a p * M p q * b q)).
Proof. apply sumto_ext. intros. rewrite <- sumto_scal. apply sumto_ext. intros. lra. Qed.
Lemma bil_swap n m (a : nat -> R) (M N : nat -> nat -> R) (b : nat -> R) :
  (forall p q, M p q = N q p) ->
  sumto n (fun p => a p * sumto m (fun q => M p q * b q)) = sumto m (fun p => sumto n (fun q => b p * N p q * a q)).
Proof.
  intro H. rewrite bil_in, sumto_swap. apply sumto_ext. intros. apply sumto_ext. intros. rewrite H. lra.
Qed.
Lemma move_in n N (a X : nat -> R) (E ET : nat -> nat -> R) :
  (forall k m, ET k m = E m k) ->
  sumto n (fun k => a k * sumto N (fun m => ET k m * X m)) = sumto N (fun m => sumto n (fun k => E m k * a k) * X m).
Proof.
  intro H. rewrite bil_in, sumto_swap. apply sumto_ext. intros. rewrite <- sumto_scal_r. apply sumto_ext. intros. rewrite H. lra.
Qed.

Lemma move_comm n N (a X : nat -> R) (E ET : nat -> nat -> R) :
  (forall k m, ET k m = E m k) ->
  sumto n (fun k => a k * sumto N (fun m => ET k m * X m)) = sumto N (fun m => X m * sumto n (fun k => E m k * a k)).
Proof. intro H. rewrite (move_in n N a X E ET H). apply sumto_ext. intros. lra. Qed.
Lemma move_bil n N m (a b : nat -> R) (E ET M : nat -> nat -> R) :
  (forall k m, ET k m = E m k) ->
  sumto n (fun k => a k * sumto N (fun p => ET k p * sumto m (fun q => M p q * b q)))
  = sumto N (fun p => sumto m (fun q => sumto n (fun k => E p k * a k) * M p q * b q)).
Proof. intro H. rewrite (move_in n N a _ E ET H). apply bil_in. Qed.
Lemma move_bil_swap n N m (a b : nat -> R) (E ET M : nat -> nat -> R) :
  (forall k m, ET k m = E m k) -> (forall p q, M p q = M q p) ->
  sumto n (fun k => a k * sumto N (fun p => ET k p * sumto m (fun q => M p q * b q)))
  = sumto m (fun p => sumto N (fun q => b p * M p q * sumto n (fun k => E q k * a k))).
Proof. intros H HM. rewrite (move_in n N a _ E ET H). apply bil_swap. exact HM. Qed.

(* ---------------------------------------------------------------- lists *)

Lemma set_length {A} (l : list A) i x : length (set l i x) = length l.
Proof. revert i. induction l; intros [|i]; cbn; auto. Qed.
Lemma nth_set {A} (l : list A) i j x d : (i < length l)%nat -> nth j (set l i x) d = if (j =? i)%nat then x else nth j l d.
Proof.
  revert i j. induction l; intros [|i] [|j] H; cbn in *; try lia; auto.
  apply IHl. lia.
Qed.
Lemma unsnoc_some {A} (l cs : list A) x : unsnoc l = Some (cs, x) -> l = cs ++ [x].
Proof.
  revert cs. induction l as [|a l IH]; intros cs H; cbn in H; [discriminate|].
  destruct (unsnoc l) as [[b y]|] eqn:E.
  - injection H as <- <-. cbn. rewrite (IH b eq_refl). reflexivity.
  - injection H as <- <-. destruct l; [reflexivity|]. cbn in E. destruct (unsnoc l) as [[? ?]|]; discriminate.
Qed.
Lemma index_nth l f k : index_in l f = Some k -> nth_error l k = Some f.
Proof.
  revert k. induction l as [|g l IH]; intros k H; cbn in H; [discriminate|].
  destruct (Nat.eqb_spec g f).
  - injection H as <-. cbn. congruence.
  - destruct (index_in l f); [|discriminate]. injection H as <-. cbn. auto.
Qed.
Lemma index_none l f : index_in l f = None -> ~ In f l.
Proof.
  induction l as [|g l IH]; cbn; intro H; [tauto|].
  destruct (Nat.eqb_spec g f); [discriminate|].
  destruct (index_in l f); [discriminate|]. intuition.
Qed.
Lemma nth_repeat' {A} (x d : A) n i : nth i (repeat x n) d = if (i <? n)%nat then x else d.
Proof. revert i. induction n; intros [|i]; cbn; auto. apply IHn. Qed.
Lemma last_cons {A} (l : list A) : forall x y, last (y :: l) x = last l y.
Proof. induction l as [|z l IH]; intros x y; [reflexivity|]. change (last (y :: z :: l) x) with (last (z :: l) x). rewrite !IH. reflexivity. Qed.
Lemma dim_eqb_true a b : dim_eqb a b = true -> a = b.
Proof.
  destruct a, b; cbn; try discriminate; auto.
  rewrite andb_true_iff, !Nat.eqb_eq. intros [-> ->]. reflexivity.
Qed.
Lemma vec_empty_nth v i : vec_is_empty v = true -> nth i v [] = [].
Proof.
  revert i. induction v as [|e v IH]; intros [|i] H; cbn in *; auto; destruct e; try discriminate; auto.
Qed.

Section Proofs.
  Context (space degree : nat -> nat) (d_space tr_space : nat -> nat) (size : dim -> nat)
          (mat : root -> nat -> nat -> R) (par : nat -> R) (nval : nat -> (nat -> nat -> R) -> R)
          (dual : nat -> bool) (other : nat -> dim * dim).

  Notation num := (num space degree size).
  Notation shape := (shape space degree d_space tr_space other).
  Notation comp_shape := (comp_shape space degree d_space tr_space other).
  Notation shape_from := (shape_from space degree d_space tr_space other).
  Notation width := (width space degree d_space tr_space size other).
  Notation cell := (cell mat).
  Notation product := (product space degree d_space tr_space size mat other).
  Notation arr_value := (arr_value space degree d_space tr_space size mat par other).
  Notation entry_value := (entry_value space degree d_space tr_space size mat par other).
  Notation row_value := (row_value space degree d_space tr_space size mat par other).
  Notation block_value := (block_value space degree d_space tr_space size mat par other).
  Notation half := (half space degree d_space tr_space size mat par other).
  Notation fcoef := (fcoef space degree size mat).
  Notation pairing := (pairing space degree d_space tr_space size mat par nval dual).
  Notation side := (side space degree d_space tr_space size mat par nval dual).
  Notation term_ap := (term_ap space degree d_space tr_space other dual).
  Notation add_to := (add_to space degree d_space tr_space other).
  Notation add_vec := (add_vec space degree d_space tr_space other).
  Notation add_mat := (add_mat space degree d_space tr_space other).

  (* -------------------------------------------------------------- shapes *)

  Lemma width_shape x : width x = size (snd (comp_shape x)).
  Proof. unfold ProxySpec.width, ProxyModel.comp_shape. destruct root_shape as [p q]. destruct (snd x); reflexivity. Qed.

  (** adjacent dimensions agree *)
  Fixpoint chained (l : list (root * bool)) : Prop :=
    match l with
    | x :: ((y :: _) as r) => snd (comp_shape x) = fst (comp_shape y) /\ chained r
    | _ => True
    end.
  Lemma shape_from_inv l : forall x s p q,
    snd s = snd (comp_shape x) -> shape_from s l = Some (p, q) ->
    chained (x :: l) /\ p = fst s /\ q = snd (comp_shape (last l x)).
  Proof.
    induction l as [|y l IH]; intros x s p q Hs H; cbn [ProxyModel.shape_from] in H.
    - injection H as ->. cbn in *. auto.
    - destruct (comp_shape y) as [p' q'] eqn:Ey. destruct (dim_eqb (snd s) p') eqn:E; [|discriminate].
      apply dim_eqb_true in E. apply (IH y) in H; [|cbn; rewrite Ey; reflexivity].
      destruct H as [H1 [H2 H3]]. cbn in H2.
      repeat split; auto.
      + rewrite Ey. cbn. congruence.
      + rewrite last_cons. exact H3.
  Qed.
  Lemma shape_inv a p q : shape a = Some (Some (p, q)) ->
    exists x l, a_comps a = x :: l /\ chained (x :: l) /\ p = fst (comp_shape x) /\ q = snd (comp_shape (last l x)).
  Proof.
    unfold ProxyModel.shape. intro H. destruct (a_comps a) as [|x l] eqn:E; [discriminate|].
    destruct (shape_from (comp_shape x) l) as [[p' q']|] eqn:F; [|discriminate]. injection H as -> ->.
    apply (shape_from_inv l x) in F; [|reflexivity]. exists x, l. intuition.
  Qed.
  Lemma shape_from_intro l : forall x s, snd s = snd (comp_shape x) -> chained (x :: l) ->
    shape_from s l = Some (fst s, snd (comp_shape (last l x))).
  Proof.
    induction l as [|y l IH]; intros x s Hs H; cbn [ProxyModel.shape_from].
    - cbn. rewrite <- Hs. destruct s; reflexivity.
    - destruct H as [H1 H2]. destruct (comp_shape y) as [p' q'] eqn:Ey.
      rewrite Hs, H1. cbn [fst].
      assert (dim_eqb p' p' = true) as -> by (destruct p'; cbn; rewrite ?Nat.eqb_refl; reflexivity).
      rewrite (IH y); [|cbn; rewrite Ey; reflexivity|exact H2].
      rewrite last_cons. reflexivity.
  Qed.
  Lemma shape_intro f x l : chained (x :: l) ->
    shape (mkArr f (x :: l)) = Some (Some (fst (comp_shape x), snd (comp_shape (last l x)))).
  Proof. intro H. unfold ProxyModel.shape. cbn [a_comps]. rewrite (shape_from_intro l x); auto. Qed.

  (* -------------------------------------------------------------- products *)

  Lemma product_cons c x l i j : l <> [] -> product c (x :: l) i j = sumto (width x) (fun k => cell c x i k * product c l k j).
  Proof. destruct l; [congruence|reflexivity]. Qed.
  Lemma product_snoc c x l y i j : product c ((x :: l) ++ [y]) i j = sumto (width (last l x)) (fun k => product c (x :: l) i k * cell c y k j).
  Proof.
    revert x i. induction l as [|z l IH]; intros x i.
    - reflexivity.
    - cbn [app]. rewrite product_cons by (destruct l; discriminate).
      rewrite (sumto_ext _ _ (fun k => cell c x i k * sumto (width (last l z)) (fun m => product c (z :: l) k m * cell c y m j))).
      + rewrite (sumto_ext _ _ (fun k => sumto (width (last l z)) (fun m => cell c x i k * product c (z :: l) k m * cell c y m j))).
        * rewrite sumto_swap. rewrite last_cons.
          apply sumto_ext. intros m _. rewrite sumto_scal_r. reflexivity.
        * intros. rewrite <- sumto_scal. apply sumto_ext. intros. lra.
      + intros k _. rewrite <- IH. reflexivity.
  Qed.

  (** arrays that stand in row blocks of dimension D *)
  Definition well (D : dim) (a : arr) : Prop := shape a = Some (Some (D, Unit)).
  Definition snoc (a : arr) (f : nat) : arr := mkArr (a_factor a) (a_comps a ++ [(Vec f, false)]).

  Lemma chained_app l : forall x y, chained ((x :: l) ++ [y]) -> chained (x :: l) /\ snd (comp_shape (last l x)) = fst (comp_shape y).
  Proof.
    induction l as [|z l IH]; intros x y H.
    - cbn in *. tauto.
    - destruct H as [H1 H2]. destruct (IH z y H2) as [H3 H4]. split; [split; assumption|].
      rewrite last_cons. exact H4.
  Qed.

  (** taking off the last vector *)
  Lemma snoc_value c D a f p : well D (snoc a f) -> (p < size D)%nat ->
    arr_value c (snoc a f) p 0 = sumto (num f) (fun k => arr_value c a p k * c f k).
  Proof.
    unfold well, snoc. intros H Hp. apply shape_inv in H. cbn [a_comps] in H.
    destruct H as [x [l [E [Hc [HD _]]]]].
    unfold ProxySpec.arr_value. cbn [a_factor a_comps].
    destruct (a_comps a) as [|y m] eqn:Ea.
    - cbn in E. injection E as <- <-. cbn [app ProxySpec.product].
      cbn in HD. subst D.
      rewrite (sumto_ext _ _ (fun k => num_value par (a_factor a) * ((if (p =? k)%nat then 1 else 0) * c f k))) by (intros; lra).
      rewrite sumto_scal, sumto_delta by exact Hp. reflexivity.
    - rewrite <- E in Hc. apply chained_app in Hc. destruct Hc as [_ Hw].
      rewrite product_snoc, width_shape, Hw, <- sumto_scal.
      apply sumto_ext. intros. unfold ProxySpec.cell. cbn. lra.
  Qed.

  (** taking off the transposed test vector *)
  Lemma remove_shape v a b : remove_test v a = Some b -> shape a = Some (Some (Unit, Unit)) ->
    well (Sp (space v) (degree v)) b.
  Proof.
    unfold remove_test. intros H Hs. apply shape_inv in Hs. destruct Hs as [x [l [E [Hc [_ Hq]]]]].
    rewrite E in H. destruct x as [r [|]]; [|discriminate]. destruct (root_eq_dec r (Vec v)) as [->|]; [|discriminate].
    injection H as <-. destruct l as [|y l].
    - cbn in Hq. discriminate.
    - destruct Hc as [Hc1 Hc2]. unfold well. rewrite shape_intro by exact Hc2. cbn in Hc1.
      rewrite <- Hc1, Hq, last_cons. reflexivity.
  Qed.
  Lemma remove_value c v a b : remove_test v a = Some b -> shape a = Some (Some (Unit, Unit)) ->
    arr_value c a 0 0 = sumto (num v) (fun p => c v p * arr_value c b p 0).
  Proof.
    unfold remove_test. intros H Hs. apply shape_inv in Hs. destruct Hs as [x [l [E [Hc [_ Hq]]]]].
    rewrite E in H. destruct x as [r [|]]; [|discriminate]. destruct (root_eq_dec r (Vec v)) as [->|]; [|discriminate].
    injection H as <-. destruct l as [|y l].
    - cbn in Hq. discriminate.
    - unfold ProxySpec.arr_value. rewrite E. cbn [a_factor a_comps].
      rewrite product_cons by discriminate. rewrite <- sumto_scal. apply sumto_ext. intros.
      unfold ProxySpec.cell. cbn. lra.
  Qed.

  (* -------------------------------------------------------------- terms *)

  Lemma linear_term_inv k o a : linear_term space degree d_space tr_space other k o = Some (Lin a) ->
    exists l, o = Some (mkArr One l) /\ a = mkArr k l /\ shape a = Some (Some (Unit, Unit)).
  Proof.
    unfold linear_term. destruct o as [[f l]|]; [|discriminate].
    destruct (shape {| a_factor := f; a_comps := l |}) as [[[[|] [|]]|]|] eqn:E; try discriminate.
    unfold rmul. cbn [a_factor a_comps]. destruct f; cbn; try discriminate. intros [= <-].
    exists l. auto.
  Qed.
  Lemma linear_term_non k o n : linear_term space degree d_space tr_space other k o <> Some (Non n).
  Proof.
    unfold linear_term. destruct o as [a|]; [|discriminate].
    destruct (shape a) as [[[[|] [|]]|]|]; try discriminate.
    destruct (rmul k a); discriminate.
  Qed.
  Lemma par_mass_inv s0 s1 d0 d1 m : par_mass s0 s1 d0 d1 = Some m -> s0 = s1 /\ d0 = d1 /\ m = of_root (Mass s0 d0).
  Proof. unfold par_mass. destruct (Nat.eqb_spec s0 s1), (Nat.eqb_spec d0 d1); cbn; intros [= <-]; auto. Qed.

  Lemma term_shape v t a : term_ap v t = Some (Lin a) -> shape a = Some (Some (Unit, Unit)).
  Proof.
    destruct t as [k [f0|f0|f0|f0|f0] [f1|f1|f1|f1|f1]|k [f0|f0|f0|f0|f0] [f1|f1|f1|f1|f1]|n l];
      cbn [ProxyModel.term_ap]; try discriminate; intro H;
      repeat match type of H with
             | context [if ?b then linear_term _ _ _ _ _ _ _ else _] => destruct b
             | None = _ => discriminate H
             | (if _ then Some (Non _) else None) = _ => destruct existsb; discriminate H
             end;
      apply linear_term_inv in H; destruct H as [? [_ [_ H]]]; exact H.
  Qed.

  Ltac open_term H :=
    repeat match type of H with
           | context [if dual ?b then linear_term _ _ _ _ _ _ _ else _] => destruct (dual b) eqn:?
           | context [if (?b =? ?d)%nat then linear_term _ _ _ _ _ _ _ else _] => destruct (Nat.eqb_spec b d)
           | None = _ => discriminate H
           | (if _ then Some (Non _) else None) = _ => destruct existsb; discriminate H
           end;
    apply linear_term_inv in H; destruct H as [l [H [-> Hshape]]];
    unfold with_mass in H;
    try match type of H with
        | context [par_mass ?a ?b ?c ?d] =>
            let E := fresh in destruct (par_mass a b c d) as [m|] eqn:E; [|discriminate];
            apply par_mass_inv in E; destruct E as [? [? ->]]
        end;
    repeat match type of H with
           | context [if (?b =? ?d)%nat then _ else _] => destruct (Nat.eqb_spec b d)
           end;
    try discriminate H; injection H as <-.

  Context (ok : arrays_ok mat).

  Lemma term_value v t a c : term_ap v t = Some (Lin a) -> arr_value c a 0 0 = pairing c t.
  Proof.
    destruct ok as [okM [okE okW]].
    destruct t as [k [f0|f0|f0|f0|f0] [f1|f1|f1|f1|f1]|k [f0|f0|f0|f0|f0] [f1|f1|f1|f1|f1]|n l];
      cbn [ProxyModel.term_ap]; try discriminate; intro H; open_term H;
      unfold ProxySpec.arr_value, ProxySpec.pairing; cbn [a_factor a_comps direct];
      try match goal with Hd : dual _ = _ |- _ => rewrite Hd end; apply f_equal;
      repeat rewrite product_cons by discriminate; cbn [ProxySpec.product];
      unfold ProxySpec.cell, ProxySpec.width, ProxySpec.fsize;
      cbn [fst snd entry_of root_shape ProxySpec.fcoef fspace froot].
    all: unfold ProxySpec.num;
      try (apply shape_inv in Hshape; destruct Hshape as [x [l [Hl [Hch _]]]]; cbn [a_comps] in Hl;
           injection Hl as <- <-; cbn in Hch);
      repeat match goal with
             | Hs : Sp _ _ = Sp _ _ /\ _ |- _ => destruct Hs
             | Hs : Sp ?a ?b = Sp ?c ?d |- _ => injection Hs as ? ?
             end;
      repeat match goal with
             | E : degree _ = degree _ |- _ => rewrite E; clear E
             end;
      repeat match goal with
             | E : d_space _ = space _ |- _ => rewrite E; clear E
             | E : space _ = d_space _ |- _ => rewrite <- E; clear E
             | E : d_space _ = d_space _ |- _ => rewrite E; clear E
             | E : space _ = tr_space _ |- _ => rewrite <- E; clear E
             | E : space _ = space _ |- _ => rewrite E; clear E
             end.
    all: first
      [ reflexivity
      | apply bil_in
      | apply bil_swap; auto
      | apply move_in; auto
      | apply sumto_ext; intros; apply Rmult_comm
      | apply move_comm; auto
      | apply move_bil; auto
      | apply move_bil_swap; auto ].
  Qed.

  (* -------------------------------------------------------------- which vectors are in an array *)

  Definition novec (x : root * bool) : Prop := match fst x with Vec _ => False | _ => True end.
  Definition clean (P : nat -> Prop) (a : arr) : Prop :=
    exists ms x, a_comps a = ms ++ [x] /\ Forall novec ms /\ (forall f b, x = (Vec f, b) -> b = false /\ P f).

  Lemma clean_intro P a ms x : unsnoc (a_comps a) = Some (ms, x) -> Forall novec ms ->
    (forall f b, x = (Vec f, b) -> b = false /\ P f) -> clean P a.
  Proof. intros H. apply unsnoc_some in H. exists ms, x. auto. Qed.
  Lemma clean_weaken (P Q : nat -> Prop) a : (forall f, P f -> Q f) -> clean P a -> clean Q a.
  Proof.
    intros H [ms [x [E [F G]]]]. exists ms, x. split; [exact E|split; [exact F|]].
    intros f b Hx. destruct (G f b Hx). auto.
  Qed.

  Lemma term_clean v t a b : term_ap v t = Some (Lin a) -> remove_test v a = Some b -> once v t ->
    clean (fun f => In f (forms_in t) /\ f <> v) b.
  Proof.
    unfold once.
    destruct t as [k [f0|f0|f0|f0|f0] [f1|f1|f1|f1|f1]|k [f0|f0|f0|f0|f0] [f1|f1|f1|f1|f1]|n l];
      cbn [ProxyModel.term_ap]; try discriminate; intro H; open_term H;
      unfold remove_test; cbn [a_comps a_factor];
      match goal with |- context [root_eq_dec ?x ?y] => destruct (root_eq_dec x y) as [Er|]; [|discriminate] end;
      injection Er as Er; intros [= <-]; cbn [forms_in froot count_occ]; intro Ho;
      (eapply clean_intro; [reflexivity|repeat constructor|]);
      intros f b' Hx; try discriminate Hx; injection Hx as <- <-;
      (split; [reflexivity|]); (split; [cbn; tauto|]);
      intro Hbad; subst;
      repeat match type of Ho with context [Nat.eq_dec ?x ?y] => destruct (Nat.eq_dec x y) end; congruence.
  Qed.

  Lemma product_ext c c' l : (forall x, In x l -> forall i j, cell c x i j = cell c' x i j) ->
    forall i j, product c l i j = product c' l i j.
  Proof.
    induction l as [|x l IH]; intros H i j; [reflexivity|].
    destruct l as [|y l].
    - apply H. left. reflexivity.
    - rewrite !product_cons by discriminate. apply sumto_ext. intros k _.
      rewrite H by (left; reflexivity). rewrite IH; [reflexivity|]. intros; apply H; right; assumption.
  Qed.
  Lemma novec_cell c c' x : novec x -> forall i j, cell c x i j = cell c' x i j.
  Proof. destruct x as [[] b]; unfold novec; cbn; try contradiction; intros _ i j; reflexivity. Qed.
  Lemma clean_value c c' P a i j : clean P a -> (forall f, P f -> forall p, c f p = c' f p) -> arr_value c a i j = arr_value c' a i j.
  Proof.
    intros [ms [x [E [F G]]]] H. unfold ProxySpec.arr_value. rewrite E. f_equal.
    apply product_ext. intros y Hy i' j'. apply in_app_iff in Hy.
    destruct Hy as [Hy|[<-|[]]].
    - apply novec_cell. rewrite Forall_forall in F. auto.
    - destruct x as [r b]. destruct r as [f| | | | | | |]; try (apply novec_cell; exact I).
      destruct (G f b eq_refl) as [-> HP]. unfold ProxySpec.cell. cbn. auto.
  Qed.
  Lemma snoc_clean_value c c' P a f i j : clean P (snoc a f) -> arr_value c a i j = arr_value c' a i j.
  Proof.
    intros [ms [x [E [F _]]]]. unfold ProxySpec.arr_value. f_equal.
    apply product_ext. intros y Hy i' j'. apply novec_cell.
    cbn [a_comps snoc] in E. apply app_inj_tail in E. destruct E as [E _]. rewrite E in Hy.
    rewrite Forall_forall in F. auto.
  Qed.
  Lemma snoc_clean_form P a f : clean P (snoc a f) -> P f.
  Proof.
    intros [ms [x [E [_ G]]]]. cbn [a_comps snoc] in E. apply app_inj_tail in E. destruct E as [_ E].
    apply (G f false). auto.
  Qed.

  (* -------------------------------------------------------------- sorting the terms of an equation *)

  Lemma add_to_some e s a e' : add_to e s a = Some e' -> e' = e ++ [(s, a)].
  Proof.
    unfold ProxyModel.add_to. destruct e as [|[s0 a0] e]; [intros [= <-]; reflexivity|].
    destruct (shape a), (shape a0); try discriminate. destruct shape_eqb; [|discriminate]. intros [= <-]. reflexivity.
  Qed.
  Definition ap_value (c : nat -> nat -> R) (x : ap) : R := match x with Lin a => arr_value c a 0 0 | Non n => nval n c end.

  Lemma entry_value_app c e e' i j : entry_value c (e ++ e') i j = entry_value c e i j + entry_value c e' i j.
  Proof. apply sumlist_app. Qed.

  Lemma sort_terms_value c v l : forall e n e' n',
    sort_terms space degree d_space tr_space other v l e n = Some (e', n') ->
    (forall s a, In (s, Lin a) l -> shape a = Some (Some (Unit, Unit))) ->
    sumto (num v) (fun p => c v p * entry_value c e' p 0) + non_value nval c n'
    = sumto (num v) (fun p => c v p * entry_value c e p 0) + non_value nval c n
      + sumlist (fun x => sg (fst x) * ap_value c (snd x)) l.
  Proof.
    induction l as [|[s [a|k]] l IH]; intros e n e' n' H Hs; cbn [sort_terms] in H.
    - injection H as <- <-. cbn. lra.
    - destruct (remove_test v a) as [a'|] eqn:Er; [|discriminate].
      destruct (add_to e s a') as [e1|] eqn:Ea; [|discriminate].
      apply add_to_some in Ea. subst e1.
      rewrite (IH _ _ _ _ H) by (intros; eapply Hs; right; eassumption).
      cbn [sumlist fst snd ap_value].
      rewrite (remove_value c v a a' Er) by (eapply Hs; left; reflexivity).
      rewrite (sumto_ext _ (fun p => c v p * entry_value c (e ++ [(s, a')]) p 0)
                 (fun p => c v p * entry_value c e p 0 + sg s * (c v p * arr_value c a' p 0))).
      + rewrite sumto_add, sumto_scal. lra.
      + intros p _. rewrite entry_value_app. unfold ProxySpec.entry_value at 2. cbn. lra.
    - rewrite (IH _ _ _ _ H) by (intros; eapply Hs; right; eassumption).
      cbn [sumlist fst snd ap_value]. unfold non_value. rewrite sumlist_app. cbn. lra.
  Qed.
  Lemma sort_terms_all v (G : arr -> Prop) l : forall e n e' n',
    sort_terms space degree d_space tr_space other v l e n = Some (e', n') ->
    (forall s a b, In (s, Lin a) l -> remove_test v a = Some b -> G b) ->
    (forall x, In x e -> G (snd x)) -> forall x, In x e' -> G (snd x).
  Proof.
    induction l as [|[s [a|k]] l IH]; intros e n e' n' H HG He; cbn [sort_terms] in H.
    - injection H as <- <-. exact He.
    - destruct (remove_test v a) as [a'|] eqn:Er; [|discriminate].
      destruct (add_to e s a') as [e1|] eqn:Ea; [|discriminate].
      apply add_to_some in Ea. subst e1.
      apply (IH _ _ _ _ H).
      + intros; eapply HG; [right; eassumption|assumption].
      + intros x Hx. apply in_app_iff in Hx. destruct Hx as [Hx|[<-|[]]]; [auto|].
        eapply HG; [left; reflexivity|exact Er].
    - apply (IH _ _ _ _ H); [|exact He]. intros; eapply HG; [right; eassumption|assumption].
  Qed.

  Lemma times_plus s : times Plus s = s.
  Proof. destruct s; reflexivity. Qed.
  Lemma side_ap_value c v l : forall l', side_ap space degree d_space tr_space other dual v l = Some l' ->
    sumlist (fun x => sg (fst x) * ap_value c (snd x)) l' = side c l.
  Proof.
    unfold ProxySpec.side. induction l as [|[s t] l IH]; intros l' H; cbn [side_ap] in H.
    - injection H as <-. reflexivity.
    - destruct (term_ap v t) as [a|] eqn:Et; [|discriminate].
      destruct (side_ap _ _ _ _ _ _ _ l) as [l1|]; [|discriminate]. injection H as <-.
      cbn [sumlist fst snd]. rewrite (IH l1 eq_refl), times_plus. f_equal. f_equal.
      destruct a as [a|k].
      + apply term_value with (v := v). exact Et.
      + destruct t as [k0 [f0|f0|f0|f0|f0] [f1|f1|f1|f1|f1]|k0 [f0|f0|f0|f0|f0] [f1|f1|f1|f1|f1]|n0 l0];
          cbn [ProxyModel.term_ap] in Et; try discriminate Et;
          repeat match type of Et with
                 | context [if ?b then linear_term _ _ _ _ _ _ _ else _] => destruct b; try discriminate Et
                 end;
          try (exfalso; exact (linear_term_non _ _ _ Et)).
        destruct existsb; [|discriminate]. injection Et as <-. reflexivity.
  Qed.
  Lemma side_ap_in v l : forall l' s x, side_ap space degree d_space tr_space other dual v l = Some l' -> In (s, x) l' ->
    exists t, In (s, t) l /\ term_ap v t = Some x.
  Proof.
    induction l as [|[s0 t] l IH]; intros l' s x H Hi; cbn [side_ap] in H.
    - injection H as <-. contradiction.
    - destruct (term_ap v t) as [a|] eqn:Et; [|discriminate].
      destruct (side_ap _ _ _ _ _ _ _ l) as [l1|]; [|discriminate]. injection H as <-.
      destruct Hi as [E|Hi].
      + injection E as <- <-. rewrite times_plus. exists t. split; [left; reflexivity|exact Et].
      + destruct (IH _ _ _ eq_refl Hi) as [t' [H1 H2]]. exists t'. split; [right; exact H1|exact H2].
  Qed.

  Lemma map_opt_nth {A B} (f : A -> option B) l : forall l', map_opt f l = Some l' ->
    length l' = length l /\ forall i x, nth_error l i = Some x -> exists y, f x = Some y /\ nth_error l' i = Some y.
  Proof.
    induction l as [|a l IH]; intros l' H; cbn in H.
    - injection H as <-. split; [reflexivity|]. intros [|i] x Hx; discriminate.
    - destruct (f a) as [b|] eqn:E; [|discriminate]. destruct (map_opt f l) as [l1|]; [|discriminate]. injection H as <-.
      destruct (IH l1 eq_refl) as [H1 H2]. split; [cbn; congruence|].
      intros [|i] x Hx; cbn in Hx.
      + injection Hx as <-. exists b. auto.
      + cbn. auto.
  Qed.
  Lemma sort_all_nth eqs : forall es ns, sort_all space degree d_space tr_space other eqs = Some (es, ns) ->
    length es = length eqs /\ length ns = length eqs /\
    forall i l v, nth_error eqs i = Some (l, v) ->
      sort_terms space degree d_space tr_space other v l [] [] = Some (nth i es [], nth i ns []).
  Proof.
    induction eqs as [|[l v] eqs IH]; intros es ns H; cbn [sort_all] in H.
    - injection H as <- <-. repeat split. intros [|i] l v Hx; discriminate.
    - destruct (sort_terms _ _ _ _ _ v l [] []) as [[e n]|] eqn:E; [|discriminate].
      destruct (sort_all _ _ _ _ _ eqs) as [[es1 ns1]|]; [|discriminate]. injection H as <- <-.
      destruct (IH _ _ eq_refl) as [H1 [H2 H3]]. split; [cbn; congruence|]. split; [cbn; congruence|].
      intros [|i] l0 v0 Hx; cbn in Hx.
      + injection Hx as <- <-. exact E.
      + cbn. auto.
  Qed.
  (** one side of all equations, sorted *)
  Lemma sorted_side eqs ls es ns :
    sides_ap space degree d_space tr_space other dual eqs = Some ls ->
    sort_all space degree d_space tr_space other ls = Some (es, ns) ->
    length es = length eqs /\ length ns = length eqs /\
    forall i l v, nth_error eqs i = Some (l, v) ->
      (forall c, side c l = sumto (num v) (fun p => c v p * entry_value c (nth i es []) p 0) + non_value nval c (nth i ns [])) /\
      (forall x, In x (nth i es []) -> well (Sp (space v) (degree v)) (snd x)) /\
      ((forall s t, In (s, t) l -> once v t) ->
       forall x, In x (nth i es []) -> clean (fun f => exists s t, In (s, t) l /\ In f (forms_in t) /\ f <> v) (snd x)) /\
      ((forall s t, In (s, t) l -> linear t) -> nth i ns [] = []).
  Proof.
    intros H1 H2. unfold sides_ap in H1. apply map_opt_nth in H1. destruct H1 as [L1 N1].
    apply sort_all_nth in H2. destruct H2 as [L2 [L3 N2]].
    split; [congruence|]. split; [congruence|].
    intros i l v Hi. destruct (N1 i _ Hi) as [[l' v'] [E1 E2]]. cbn [fst snd] in E1.
    destruct (side_ap _ _ _ _ _ _ v l) as [l1|] eqn:Es; [|discriminate]. injection E1 as -> ->.
    specialize (N2 i _ _ E2).
    assert (Hsh : forall s a, In (s, Lin a) l' -> shape a = Some (Some (Unit, Unit))).
    { intros s a Ha. destruct (side_ap_in _ _ _ _ _ Es Ha) as [t [_ Ht]]. eapply term_shape; exact Ht. }
    split; [|split; [|split]].
    - intro c. rewrite <- (side_ap_value c v' l l' Es).
      rewrite (sort_terms_value c v' l' _ _ _ _ N2 Hsh).
      rewrite (sumto_ext _ (fun p => c v' p * entry_value c [] p 0) (fun _ => 0)).
      + rewrite sumto_zero. cbn. lra.
      + intros. cbn. lra.
    - apply (sort_terms_all v' (well (Sp (space v') (degree v'))) l' _ _ _ _ N2).
      + intros s a b Ha Hb. eapply remove_shape; eauto.
      + intros x [].
    - intro Ho. apply (sort_terms_all v' _ l' _ _ _ _ N2).
      + intros s a b Ha Hb. destruct (side_ap_in _ _ _ _ _ Es Ha) as [t [Hin Ht]].
        eapply clean_weaken; [|eapply term_clean; eauto].
        intros f [Hf Hv]. exists s, t. auto.
      + intros x [].
    - intro Hl. assert (Hno : forall s k, ~ In (s, Non k) l').
      { intros s k Hk. destruct (side_ap_in _ _ _ _ _ Es Hk) as [t [Hin Ht]]. specialize (Hl s t Hin).
        destruct t as [k0 [f0|f0|f0|f0|f0] [f1|f1|f1|f1|f1]|k0 [f0|f0|f0|f0|f0] [f1|f1|f1|f1|f1]|n0 l0];
          cbn [ProxyModel.term_ap] in Ht; try discriminate Ht;
          repeat match type of Ht with
                 | context [if ?b then linear_term _ _ _ _ _ _ _ else _] => destruct b; try discriminate Ht
                 end;
          try (exact (linear_term_non _ _ _ Ht)). exact Hl. }
      clear - N2 Hno. revert N2. remember (nth i es []) as e eqn:Ee. clear Ee. generalize (@nil (sgn * arr)).
      induction l' as [|[s [a|k]] l' IH]; intros e0 H; cbn [sort_terms] in H.
      + injection H as _ H. auto.
      + destruct (remove_test v' a); [|discriminate]. destruct (add_to e0 s a0) as [e1|]; [|discriminate].
        eapply IH; [|exact H]. intros s' k' Hk. apply (Hno s' k'). right. exact Hk.
      + exfalso. apply (Hno s k). left. reflexivity.
  Qed.

  (* -------------------------------------------------------------- parsing *)

  Section Parse.
    Context (D : nat -> dim) (G : nat -> arr -> Prop) (GD : forall i a, G i a -> well (D i) a).

    (** the last component is not the vector of a target *)
    Definition free (targets : list nat) (a : arr) : Prop :=
      forall cs f, a_comps a = cs ++ [(Vec f, false)] -> ~ In f targets.
    Definition block_ok (n : nat) (b : list (list (list (sgn * arr))) * list nat) : Prop :=
      length (fst b) = n /\ (forall i, (i < n)%nat -> length (nth i (fst b) []) = length (snd b)) /\
      (forall i k f x, nth_error (snd b) k = Some f -> In x (nth k (nth i (fst b) []) []) -> G i (snoc (snd x) f)).
    Definition rest_ok (rest : list (list (sgn * arr))) : Prop :=
      forall i x, In x (nth i rest []) -> G i (snd x).
    Definition st_ok (n : nat) (targets : list nat) (st : list (list (list (sgn * arr))) * list (list (sgn * arr))) : Prop :=
      block_ok n (fst st, targets) /\ length (snd st) = n /\ rest_ok (snd st) /\
      (forall i x, In x (nth i (snd st) []) -> free targets (snd x)).
    Definition st_value c targets (st : list (list (list (sgn * arr))) * list (list (sgn * arr))) i p : R :=
      row_value c c (nth i (fst st) []) targets p + entry_value c (nth i (snd st) []) p 0.

    Lemma add_vec_some v i s a v' : add_vec v i s a = Some v' ->
      (i < length v)%nat /\ v' = set v i (nth i v [] ++ [(s, a)]).
    Proof.
      unfold ProxyModel.add_vec. destruct (nth_error v i) as [e|] eqn:E; [|discriminate].
      destruct (add_to e s a) as [e'|] eqn:Ea; [|discriminate]. intros [= <-].
      apply add_to_some in Ea. split; [apply nth_error_Some; congruence|].
      rewrite (nth_error_nth v i [] E), Ea. reflexivity.
    Qed.
    Lemma add_mat_some m i j s a m' : add_mat m i j s a = Some m' ->
      (i < length m)%nat /\ (j < length (nth i m []))%nat /\ m' = set m i (set (nth i m []) j (nth j (nth i m []) [] ++ [(s, a)])).
    Proof.
      unfold ProxyModel.add_mat. destruct (nth_error m i) as [row|] eqn:E; [|discriminate].
      destruct (add_vec row j s a) as [row'|] eqn:Ea; [|discriminate]. intros [= <-].
      apply add_vec_some in Ea. destruct Ea as [H ->].
      rewrite (nth_error_nth m i [] E). repeat split; auto. apply nth_error_Some. congruence.
    Qed.
    Lemma row_value_set c targets p : forall row k f s a,
      nth_error targets k = Some f -> (k < length row)%nat ->
      row_value c c (set row k (nth k row [] ++ [(s, a)])) targets p
      = row_value c c row targets p + sg s * sumto (num f) (fun q => arr_value c a p q * c f q).
    Proof.
      induction targets as [|g targets IH]; intros row k f s a Hk Hl; [destruct k; discriminate|].
      destruct row as [|e row]; [cbn in Hl; lia|]. destruct k as [|k]; cbn in Hk.
      - injection Hk as ->. cbn [set nth ProxySpec.row_value].
        rewrite (sumto_ext _ _ (fun q => entry_value c e p q * c f q + sg s * (arr_value c a p q * c f q))).
        + rewrite sumto_add, sumto_scal. lra.
        + intros q _. rewrite entry_value_app. unfold ProxySpec.entry_value at 2. cbn. lra.
      - cbn [set nth ProxySpec.row_value]. rewrite (IH row k f s a Hk) by (cbn in Hl; lia). lra.
    Qed.

    Lemma parse_term_ok n targets i st s a st' : st_ok n targets st -> (i < n)%nat -> G i a ->
      parse_term space degree d_space tr_space other targets i st (s, a) = Some st' ->
      st_ok n targets st' /\
      forall c j p, (p < size (D j))%nat ->
        st_value c targets st' j p = st_value c targets st j p + (if (j =? i)%nat then sg s * arr_value c a p 0 else 0).
    Proof.
      destruct st as [bm rest]. intros [[B1 [B2 B3]] [R1 [R2 R3]]] Hi HG H. cbn [fst snd] in *.
      unfold parse_term in H. destruct (unsnoc (a_comps a)) as [[cs [r tr]]|] eqn:Eu; [|discriminate].
      apply unsnoc_some in Eu.
      (* what happens when the array stays *)
      assert (Stay : forall rest', add_vec rest i s a = Some rest' -> free targets a ->
                st_ok n targets (bm, rest') /\
                forall c j p, st_value c targets (bm, rest') j p
                              = st_value c targets (bm, rest) j p + (if (j =? i)%nat then sg s * arr_value c a p 0 else 0)).
      { intros rest' Ha Hf. apply add_vec_some in Ha. destruct Ha as [Hl ->]. split.
        - split; [split; [|split]; assumption|]. cbn [fst snd]. rewrite set_length.
          split; [assumption|]. split; intros j x Hx; rewrite nth_set in Hx by assumption.
          + destruct (Nat.eqb_spec j i) as [->|]; [|auto].
            apply in_app_iff in Hx. destruct Hx as [Hx|[<-|[]]]; auto.
          + destruct (Nat.eqb_spec j i) as [->|]; [|eauto].
            apply in_app_iff in Hx. destruct Hx as [Hx|[<-|[]]]; [eauto|exact Hf].
        - intros c j p. unfold st_value. cbn [fst snd]. rewrite nth_set by assumption.
          destruct (Nat.eqb_spec j i) as [->|]; [|lra].
          rewrite entry_value_app. unfold ProxySpec.entry_value at 2. cbn. lra. }
      assert (Fr : forall f, r = Vec f -> tr = false -> index_in targets f = None -> free targets a).
      { intros f -> -> Hx cs' f' E. rewrite Eu in E. apply app_inj_tail in E. destruct E as [_ E].
        injection E as <-. apply index_none. exact Hx. }
      assert (Fr' : (forall f, r <> Vec f) \/ tr = true -> free targets a).
      { intros Hd cs' f' E. rewrite Eu in E. apply app_inj_tail in E. destruct E as [_ E].
        injection E as -> ->. destruct Hd as [Hd|Hd]; [exfalso; eapply Hd; reflexivity|discriminate]. }
      destruct r as [f|s0 d0|s0 d0|s0 d0|a0 b0|f0|f0 f1|n0]; [destruct tr|..];
        try (destruct (add_vec rest i s a) as [rest'|] eqn:Ea; [|discriminate]; injection H as <-;
             destruct (Stay rest' eq_refl) as [S1 S2]; [apply Fr'; first [right; reflexivity|left; discriminate]|];
             split; [exact S1|intros; apply S2]).
      destruct (index_in targets f) as [k|] eqn:Ex.
      - destruct (add_mat bm i k s (mkArr (a_factor a) cs)) as [bm'|] eqn:Ea; [|discriminate]. injection H as <-.
        apply add_mat_some in Ea. destruct Ea as [Hl [Hk ->]]. apply index_nth in Ex.
        assert (Ha : snoc (mkArr (a_factor a) cs) f = a).
        { destruct a as [fa ca]. cbn in Eu |- *. unfold snoc. cbn. rewrite Eu. reflexivity. }
        split.
        + split; [|cbn [fst snd]; auto]. split; [|split]; cbn [fst snd].
          * rewrite set_length. assumption.
          * intros j Hj. rewrite nth_set by assumption. destruct (Nat.eqb_spec j i) as [->|]; [|auto].
            rewrite set_length. auto.
          * intros j k' f' x Hf' Hx. rewrite nth_set in Hx by assumption.
            destruct (Nat.eqb_spec j i) as [->|]; [|eauto].
            rewrite nth_set in Hx by assumption. destruct (Nat.eqb_spec k' k) as [->|]; [|eauto].
            apply in_app_iff in Hx. destruct Hx as [Hx|[<-|[]]]; [eauto|].
            cbn [snd]. rewrite Ex in Hf'. injection Hf' as <-. rewrite Ha. exact HG.
        + intros c j p Hp. unfold st_value. cbn [fst snd]. rewrite nth_set by assumption.
          destruct (Nat.eqb_spec j i) as [->|]; [|lra].
          rewrite (row_value_set c targets p _ k f s _ Ex Hk).
          rewrite <- (snoc_value c (D i)) by (rewrite ?Ha; auto). rewrite Ha. lra.
      - destruct (add_vec rest i s a) as [rest'|] eqn:Ea; [|discriminate]. injection H as <-.
        destruct (Stay rest' eq_refl) as [S1 S2]; [eapply Fr; eauto|]. split; [exact S1|intros; apply S2].
    Qed.
    Lemma parse_entry_ok n targets i e : forall st st', st_ok n targets st -> (i < n)%nat ->
      (forall x, In x e -> G i (snd x)) ->
      parse_entry space degree d_space tr_space other targets i st e = Some st' ->
      st_ok n targets st' /\
      forall c j p, (p < size (D j))%nat ->
        st_value c targets st' j p = st_value c targets st j p + (if (j =? i)%nat then entry_value c e p 0 else 0).
    Proof.
      induction e as [|[s a] e IH]; intros st st' Hst Hi HG H; cbn [parse_entry] in H.
      - injection H as <-. split; [exact Hst|]. intros c j p _. cbn. destruct (j =? i)%nat; lra.
      - destruct (parse_term _ _ _ _ _ targets i st (s, a)) as [st1|] eqn:E; [|discriminate].
        apply (parse_term_ok n) in E; auto; [|apply (HG (s, a)); left; reflexivity].
        destruct E as [E1 E2]. apply IH in H; auto; [|intros; apply HG; right; assumption].
        destruct H as [H1 H2]. split; [exact H1|]. intros c j p Hp. rewrite H2, E2 by exact Hp.
        unfold ProxySpec.entry_value. cbn. destruct (j =? i)%nat; lra.
    Qed.
    Lemma parse_rows_ok n targets v : forall i st st', st_ok n targets st -> (i + length v <= n)%nat ->
      (forall k x, In x (nth k v []) -> G (i + k)%nat (snd x)) ->
      parse_rows space degree d_space tr_space other targets i st v = Some st' ->
      st_ok n targets st' /\
      forall c j p, (p < size (D j))%nat ->
        st_value c targets st' j p = st_value c targets st j p + (if (j <? i)%nat then 0 else entry_value c (nth (j - i) v []) p 0).
    Proof.
      induction v as [|e v IH]; intros i st st' Hst Hi HG H; cbn [parse_rows] in H.
      - injection H as <-. split; [exact Hst|]. intros c j p _.
        replace (nth (j - i) [] []) with (@nil (sgn * arr)) by (destruct (j - i)%nat; reflexivity). destruct (j <? i)%nat; cbn; lra.
      - cbn [length] in Hi. destruct (parse_entry _ _ _ _ _ targets i st e) as [st1|] eqn:E; [|discriminate].
        apply (parse_entry_ok n) in E; auto; [|lia|intros x Hx; specialize (HG 0%nat x Hx); rewrite Nat.add_0_r in HG; exact HG].
        destruct E as [E1 E2]. apply IH in H; auto; [|lia|].
        + destruct H as [H1 H2]. split; [exact H1|]. intros c j p Hp. rewrite H2, E2 by exact Hp.
          destruct (Nat.eqb_spec j i) as [->|].
          * rewrite Nat.sub_diag. cbn [nth]. destruct (Nat.ltb_spec i (S i)); [|lia]. rewrite Nat.ltb_irrefl. lra.
          * destruct (Nat.ltb_spec j (S i)), (Nat.ltb_spec j i); try lia; [lra|].
            replace (j - i)%nat with (S (j - S i)) by lia. cbn [nth]. lra.
        + intros k x Hx. specialize (HG (S k) x Hx). rewrite Nat.add_succ_r in HG. exact HG.
    Qed.
    Lemma row_value_empty c c' targets p : forall row, (forall k, nth k row [] = []) -> row_value c c' row targets p = 0.
    Proof.
      induction targets as [|f targets IH]; intros row H; destruct row as [|e row]; cbn; auto.
      rewrite (sumto_ext _ _ (fun _ => 0)).
      - rewrite sumto_zero, IH; [lra|]. intro k. exact (H (S k)).
      - intros k _. specialize (H 0%nat). cbn in H. subst e. cbn. lra.
    Qed.
    Lemma parse_side_ok targets mvs v mvs' v' :
      rest_ok v -> Forall (block_ok (length v)) mvs ->
      parse_side space degree d_space tr_space other targets mvs v = Some (mvs', v') ->
      length v' = length v /\ rest_ok v' /\ Forall (block_ok (length v)) mvs' /\
      (forall i x, In x (nth i v' []) -> free targets (snd x)) /\
      (exists bm, mvs' = mvs ++ (if mat_is_empty bm then [] else [(bm, targets)])) /\
      forall c i p, (p < size (D i))%nat -> half c mvs' v' i p = half c mvs v i p.
    Proof.
      intros Hv Hm. unfold parse_side.
      destruct (parse_rows _ _ _ _ _ targets 0 _ v) as [[bm rest]|] eqn:E; [|discriminate].
      intros [= <- <-].
      apply (parse_rows_ok (length v)) in E; [|..].
      - destruct E as [[[B1 [B2 B3]] [R1 [R2 R3]]] HV]. cbn [fst snd] in *.
        repeat split; auto.
        + destruct (mat_is_empty bm); [exact Hm|]. apply Forall_app. split; [exact Hm|].
          constructor; [|constructor]. repeat split; auto.
        + exists bm. destruct (mat_is_empty bm); [rewrite app_nil_r|]; reflexivity.
        + intros c i p Hp. specialize (HV c i p Hp). cbn [Nat.ltb Nat.leb] in HV. rewrite Nat.sub_0_r in HV.
          unfold st_value at 2 in HV. cbn [fst snd] in HV.
          rewrite (row_value_empty c c targets p) in HV.
          2:{ intro k. unfold empty_mat. rewrite nth_repeat'. destruct (i <? length v)%nat; [|destruct k; reflexivity].
              rewrite nth_repeat'. destruct (k <? length targets)%nat; reflexivity. }
          unfold empty_vec in HV. rewrite nth_repeat' in HV.
          replace (if (i <? length v)%nat then [] else []) with (@nil (sgn * arr)) in HV by (destruct (i <? length v)%nat; reflexivity).
          unfold st_value in HV. cbn [fst snd] in HV.
          unfold ProxySpec.half. destruct (mat_is_empty bm) eqn:Em.
          * rewrite (row_value_empty c c targets p) in HV.
            -- unfold ProxySpec.entry_value at 2 in HV. cbn [sumlist] in HV. lra.
            -- intro k. apply vec_empty_nth. unfold mat_is_empty in Em. rewrite forallb_forall in Em.
               destruct (Nat.lt_ge_cases i (length bm)).
               ++ apply Em. apply nth_In. assumption.
               ++ rewrite nth_overflow by assumption. reflexivity.
          * rewrite sumlist_app. cbn [sumlist]. unfold ProxySpec.block_value at 2. cbn [fst snd].
            unfold ProxySpec.entry_value at 2 in HV. cbn [sumlist] in HV. lra.
      - split; [split; [|split]|split; [|split]]; cbn [fst snd].
        + unfold empty_mat. apply repeat_length.
        + intros i Hi. unfold empty_mat. rewrite nth_repeat'. destruct (Nat.ltb_spec i (length v)); [|lia]. apply repeat_length.
        + intros i k f x _ Hx. unfold empty_mat in Hx. rewrite nth_repeat' in Hx.
          destruct (i <? length v)%nat; [|destruct k; contradiction].
          rewrite nth_repeat' in Hx. destruct (k <? length targets)%nat; contradiction.
        + apply repeat_length.
        + intros i x Hx. unfold empty_vec in Hx. rewrite nth_repeat' in Hx. destruct (i <? length v)%nat; contradiction.
        + intros i x Hx. unfold empty_vec in Hx. rewrite nth_repeat' in Hx. destruct (i <? length v)%nat; contradiction.
      - lia.
      - intros k x Hx. apply Hv. exact Hx.
    Qed.

    (* ------------------------------------------------------------ the right-hand side of the system *)

    Lemma matmul_vec m f : matmul m (vec f) = Some (snoc m f).
    Proof. unfold matmul, vec, of_root, snoc. destruct m as [[] l]; reflexivity. Qed.
    Lemma add_products_ok i f l : forall e e', add_products space degree d_space tr_space other f l e = Some e' ->
      (forall x, In x l -> G i (snoc (snd x) f)) -> (forall x, In x e -> G i (snd x)) ->
      (forall x, In x e' -> G i (snd x)) /\
      forall c p, (p < size (D i))%nat ->
        entry_value c e' p 0 = entry_value c e p 0 + sumto (num f) (fun k => entry_value c l p k * c f k).
    Proof.
      induction l as [|[s m] l IH]; intros e e' H Hl He; cbn [add_products] in H.
      - injection H as <-. split; [exact He|]. intros c p _.
        rewrite (sumto_ext _ _ (fun _ => 0)); [rewrite sumto_zero; lra|]. intros. cbn. lra.
      - rewrite matmul_vec in H. destruct (add_to e (times Plus s) (snoc m f)) as [e1|] eqn:Ea; [|discriminate].
        apply add_to_some in Ea. subst e1. rewrite times_plus in H.
        assert (Hm : G i (snoc m f)) by (apply (Hl (s, m)); left; reflexivity).
        apply IH in H; [|intros; apply Hl; right; assumption|].
        + destruct H as [H1 H2]. split; [exact H1|]. intros c p Hp. rewrite H2 by exact Hp.
          rewrite entry_value_app. unfold ProxySpec.entry_value at 2. cbn [sumlist fst snd].
          rewrite (snoc_value c (D i)) by auto.
          rewrite (sumto_ext _ (fun k => entry_value c ((s, m) :: l) p k * c f k)
                     (fun k => sg s * (arr_value c m p k * c f k) + entry_value c l p k * c f k)).
          * rewrite sumto_add, sumto_scal. lra.
          * intros k _. unfold ProxySpec.entry_value. cbn. lra.
        + intros x Hx. apply in_app_iff in Hx. destruct Hx as [Hx|[<-|[]]]; auto.
    Qed.
    Lemma add_row_ok i targets : forall row e e', add_row space degree d_space tr_space other targets row e = Some e' ->
      (forall k f x, nth_error targets k = Some f -> In x (nth k row []) -> G i (snoc (snd x) f)) ->
      (forall x, In x e -> G i (snd x)) ->
      (forall x, In x e' -> G i (snd x)) /\
      forall c p, (p < size (D i))%nat -> entry_value c e' p 0 = entry_value c e p 0 + row_value c c row targets p.
    Proof.
      induction targets as [|f targets IH]; intros [|l row] e e' H Hr He; cbn [add_row] in H; try discriminate.
      - injection H as <-. split; [exact He|]. intros. cbn. lra.
      - destruct (add_products _ _ _ _ _ f l e) as [e1|] eqn:E; [|discriminate].
        apply (add_products_ok i) in E; [|intros x Hx; apply (Hr 0%nat f x eq_refl Hx)|exact He].
        destruct E as [E1 E2]. apply IH in H; [|intros k g x Hk Hx; apply (Hr (S k) g x Hk Hx)|exact E1].
        destruct H as [H1 H2]. split; [exact H1|]. intros c p Hp. rewrite H2, E2 by exact Hp. cbn. lra.
    Qed.
    Lemma add_block_nth targets bm : forall b b', add_block space degree d_space tr_space other targets bm b = Some b' ->
      length b' = length b /\ length bm = length b /\
      forall i, (i < length b)%nat -> add_row space degree d_space tr_space other targets (nth i bm []) (nth i b []) = Some (nth i b' []).
    Proof.
      induction bm as [|row bm IH]; intros [|e b] b' H; cbn [add_block] in H; try discriminate.
      - injection H as <-. repeat split. intros i Hi. cbn in Hi. lia.
      - destruct (add_row _ _ _ _ _ targets row e) as [e'|] eqn:E; [|discriminate].
        destruct (add_block _ _ _ _ _ targets bm b) as [b1|] eqn:Eb; [|discriminate]. injection H as <-.
        destruct (IH _ _ Eb) as [H1 [H2 H3]]. repeat split; cbn; try congruence.
        intros [|i] Hi; [exact E|]. apply H3. lia.
    Qed.
    Lemma add_blocks_ok mvs : forall b b', add_blocks space degree d_space tr_space other mvs b = Some b' ->
      Forall (block_ok (length b)) mvs -> rest_ok b ->
      length b' = length b /\ rest_ok b' /\
      forall c i p, (i < length b)%nat -> (p < size (D i))%nat ->
        entry_value c (nth i b' []) p 0 = entry_value c (nth i b []) p 0 + sumlist (fun x => block_value c x i p) mvs.
    Proof.
      induction mvs as [|[bm targets] mvs IH]; intros b b' H Hm Hb; cbn [add_blocks] in H.
      - injection H as <-. repeat split; auto. intros. cbn. lra.
      - destruct (add_block _ _ _ _ _ targets bm b) as [b1|] eqn:E; [|discriminate].
        apply add_block_nth in E. destruct E as [L1 [L2 N]].
        inversion Hm as [|x y [B1 [B2 B3]] Hm']; subst. cbn [fst snd] in *.
        assert (P : forall i, (i < length b)%nat ->
                  (forall x, In x (nth i b1 []) -> G i (snd x)) /\
                  forall c p, (p < size (D i))%nat -> entry_value c (nth i b1 []) p 0 = entry_value c (nth i b []) p 0 + row_value c c (nth i bm []) targets p).
        { intros i Hi. apply (add_row_ok i targets _ _ _ (N i Hi)).
          - intros k f x Hk Hx. eapply B3; eauto.
          - intros x Hx. apply Hb. exact Hx. }
        apply IH in H.
        + destruct H as [H1 [H2 H3]]. split; [congruence|]. split; [exact H2|].
          intros c i p Hi Hp. rewrite H3 by (rewrite ?L1; assumption). destruct (P i Hi) as [_ P2]. rewrite P2 by exact Hp.
          cbn [sumlist]. unfold ProxySpec.block_value at 2. cbn [fst snd]. lra.
        + rewrite L1. exact Hm'.
        + intros i x Hx. destruct (Nat.lt_ge_cases i (length b)) as [Hi|Hi].
          * destruct (P i Hi) as [P1 _]. auto.
          * rewrite nth_overflow in Hx by lia. contradiction.
    Qed.
    Lemma add_list_some l : forall e e', add_list space degree d_space tr_space other l e = Some e' -> e' = e ++ l.
    Proof.
      induction l as [|[s a] l IH]; intros e e' H; cbn [add_list] in H.
      - injection H as <-. rewrite app_nil_r. reflexivity.
      - destruct (add_to e s a) as [e1|] eqn:Ea; [|discriminate]. apply add_to_some in Ea. subst e1.
        apply IH in H. rewrite H, <- app_assoc. reflexivity.
    Qed.
    Lemma add_vecs_nth v : forall b b', add_vecs space degree d_space tr_space other v b = Some b' ->
      length b' = length b /\ length v = length b /\ forall i, nth i b' [] = nth i b [] ++ nth i v [].
    Proof.
      induction v as [|l v IH]; intros [|e b] b' H; cbn [add_vecs] in H; try discriminate.
      - injection H as <-. repeat split. intros [|i]; reflexivity.
      - destruct (add_list _ _ _ _ _ l e) as [e'|] eqn:E; [|discriminate].
        destruct (add_vecs _ _ _ _ _ v b) as [b1|] eqn:Eb; [|discriminate]. injection H as <-.
        apply add_list_some in E. destruct (IH _ _ Eb) as [H1 [H2 H3]]. repeat split; cbn; try congruence.
        intros [|i]; [exact E|]. apply H3.
    Qed.
  End Parse.

  (** mp.parse(targets), any number of times, keeps what the rows say *)
  Definition mp_ok (GL GR : nat -> arr -> Prop) (n : nat) (m : mp) : Prop :=
    length (m_lbv m) = n /\ length (m_rbv m) = n /\
    rest_ok GL (m_lbv m) /\ rest_ok GR (m_rbv m) /\
    Forall (block_ok GL n) (m_left m) /\ Forall (block_ok GR n) (m_right m).
  Lemma parse_ok D (GL GR : nat -> arr -> Prop) n targets m m' :
    (forall i a, GL i a -> well (D i) a) -> (forall i a, GR i a -> well (D i) a) ->
    mp_ok GL GR n m -> parse space degree d_space tr_space other targets m = Some m' ->
    mp_ok GL GR n m' /\ m_lnon m' = m_lnon m /\ m_rnon m' = m_rnon m /\ (length targets <= n)%nat /\
    (forall i x, In x (nth i (m_lbv m') []) \/ In x (nth i (m_rbv m') []) -> free targets (snd x)) /\
    (forall c i p, (p < size (D i))%nat ->
       half c (m_left m') (m_lbv m') i p = half c (m_left m) (m_lbv m) i p /\
       half c (m_right m') (m_rbv m') i p = half c (m_right m) (m_rbv m) i p).
  Proof.
    intros WL WR [L1 [L2 [L3 [L4 [L5 L6]]]]] H. unfold parse in H.
    destruct (length targets <=? length (m_lbv m))%nat eqn:El; [|discriminate]. apply Nat.leb_le in El.
    destruct (parse_side _ _ _ _ _ targets (m_left m) (m_lbv m)) as [[l lbv]|] eqn:E1; [|discriminate].
    destruct (parse_side _ _ _ _ _ targets (m_right m) (m_rbv m)) as [[r rbv]|] eqn:E2; [|discriminate].
    injection H as <-.
    apply (parse_side_ok D GL WL) in E1; [|assumption|rewrite L1; assumption].
    apply (parse_side_ok D GR WR) in E2; [|assumption|rewrite L2; assumption].
    destruct E1 as [A1 [A2 [A3 [A4 [_ A5]]]]], E2 as [B1 [B2 [B3 [B4 [_ B5]]]]].
    rewrite L1 in *. rewrite L2 in *.
    split; [repeat split; cbn; auto|]. cbn. repeat split; auto.
    intros i x [Hx|Hx]; eauto.
  Qed.

  (* -------------------------------------------------------------- equations, rows, systems *)

  Notation parses := (parses space degree d_space tr_space other).
  Notation new_mp := (new_mp space degree d_space tr_space other dual).
  Notation to_ls := (to_ls space degree d_space tr_space other).
  Notation to_nls := (to_nls space degree d_space tr_space other).
  Notation solves := (solves space degree d_space tr_space size mat par nval dual).

  Lemma parses_ok D (GL GR : nat -> arr -> Prop) n tss : forall m m',
    (forall i a, GL i a -> well (D i) a) -> (forall i a, GR i a -> well (D i) a) ->
    mp_ok GL GR n m -> parses tss m = Some m' ->
    mp_ok GL GR n m' /\ m_lnon m' = m_lnon m /\ m_rnon m' = m_rnon m /\
    (forall c i p, (p < size (D i))%nat ->
       half c (m_left m') (m_lbv m') i p = half c (m_left m) (m_lbv m) i p /\
       half c (m_right m') (m_rbv m') i p = half c (m_right m) (m_rbv m) i p).
  Proof.
    induction tss as [|ts tss IH]; intros m m' WL WR Hm H; cbn [ProxySpec.parses] in H.
    - injection H as <-. repeat split; auto; apply Hm.
    - destruct (parse _ _ _ _ _ ts m) as [m1|] eqn:E; [|discriminate].
      apply (parse_ok D GL GR n) in E; auto. destruct E as [E1 [E2 [E3 [_ [_ E4]]]]].
      apply IH in H; auto. destruct H as [H1 [H2 [H3 H4]]].
      split; [exact H1|]. split; [congruence|]. split; [congruence|].
      intros c i p Hp. destruct (E4 c i p Hp), (H4 c i p Hp). split; congruence.
  Qed.

  Section Equations.
    Context (eqs : list (list (sgn * pterm) * list (sgn * pterm) * nat)).

    Definition dim_of (i : nat) : dim :=
      match nth_error eqs i with Some (_, _, v) => Sp (space v) (degree v) | None => Unit end.
    Definition good (pick : list (sgn * pterm) * list (sgn * pterm) -> list (sgn * pterm)) (i : nat) (a : arr) : Prop :=
      well (dim_of i) a /\
      forall l r v, nth_error eqs i = Some (l, r, v) ->
        (forall s t, In (s, t) (pick (l, r)) -> once v t) ->
        clean (fun f => exists s t, In (s, t) (pick (l, r)) /\ In f (forms_in t) /\ f <> v) a.

    Lemma new_mp_ok unknowns tss m m' : new_mp eqs unknowns = Some m -> parses tss m = Some m' ->
      exists lbv rbv,
        mp_ok (good fst) (good snd) (length eqs) m' /\
        (forall c i p, (p < size (dim_of i))%nat ->
           half c (m_left m') (m_lbv m') i p = entry_value c (nth i lbv []) p 0 /\
           half c (m_right m') (m_rbv m') i p = entry_value c (nth i rbv []) p 0) /\
        forall i l r v, nth_error eqs i = Some (l, r, v) ->
          (forall c, side c l = sumto (num v) (fun p => c v p * entry_value c (nth i lbv []) p 0) + non_value nval c (nth i (m_lnon m') [])) /\
          (forall c, side c r = sumto (num v) (fun p => c v p * entry_value c (nth i rbv []) p 0) + non_value nval c (nth i (m_rnon m') [])) /\
          (forall x, In x (nth i lbv []) -> good fst i (snd x)) /\ (forall x, In x (nth i rbv []) -> good snd i (snd x)) /\
          ((forall s t, In (s, t) l \/ In (s, t) r -> linear t) -> nth i (m_lnon m') [] = [] /\ nth i (m_rnon m') [] = []).
    Proof.
      unfold ProxyModel.new_mp. intros H HP.
      destruct (sides_ap _ _ _ _ _ _ (map _ eqs)) as [ls|] eqn:E1; [|discriminate].
      destruct (sides_ap _ _ _ _ _ _ (map (fun e => (snd (fst e), snd e)) eqs)) as [rs|] eqn:E2; [|discriminate].
      destruct (sort_all _ _ _ _ _ ls) as [[lbv lnon]|] eqn:E3; [|discriminate].
      destruct (sort_all _ _ _ _ _ rs) as [[rbv rnon]|] eqn:E4; [|discriminate].
      destruct (sorted_side _ _ _ _ E1 E3) as [L1 [L2 L3]]. destruct (sorted_side _ _ _ _ E2 E4) as [R1 [R2 R3]].
      rewrite map_length in *.
      assert (GL : forall i x, In x (nth i lbv []) -> good fst i (snd x)).
      { intros i x Hx. destruct (nth_error eqs i) as [[[l r] v]|] eqn:En.
        - assert (Hn : nth_error (map (fun e => (fst (fst e), snd e)) eqs) i = Some (l, v)) by (rewrite nth_error_map, En; reflexivity).
          destruct (L3 _ _ _ Hn) as [_ [W [C _]]]. split.
          + unfold dim_of. rewrite En. auto.
          + intros l' r' v' En' Ho. rewrite En in En'. injection En' as <- <- <-. cbn [fst] in *. apply C; auto.
        - apply nth_error_None in En. rewrite nth_overflow in Hx by lia. contradiction. }
      assert (GR : forall i x, In x (nth i rbv []) -> good snd i (snd x)).
      { intros i x Hx. destruct (nth_error eqs i) as [[[l r] v]|] eqn:En.
        - assert (Hn : nth_error (map (fun e => (snd (fst e), snd e)) eqs) i = Some (r, v)) by (rewrite nth_error_map, En; reflexivity).
          destruct (R3 _ _ _ Hn) as [_ [W [C _]]]. split.
          + unfold dim_of. rewrite En. auto.
          + intros l' r' v' En' Ho. rewrite En in En'. injection En' as <- <- <-. cbn [snd] in *. apply C; auto.
        - apply nth_error_None in En. rewrite nth_overflow in Hx by lia. contradiction. }
      assert (WL : forall i a, good fst i a -> well (dim_of i) a) by (intros i a [W _]; exact W).
      assert (WR : forall i a, good snd i a -> well (dim_of i) a) by (intros i a [W _]; exact W).
      apply (parse_ok dim_of (good fst) (good snd) (length eqs)) in H; auto;
        [|split; [exact L1|split; [exact R1|split; [exact GL|split; [exact GR|split; constructor]]]]].
      destruct H as [M1 [N1 [N2 [_ [_ V1]]]]].
      apply (parses_ok dim_of (good fst) (good snd) (length eqs)) in HP; auto.
      destruct HP as [M2 [N3 [N4 V2]]]. cbn in N1, N2. rewrite N1 in N3. rewrite N2 in N4.
      exists lbv, rbv. split; [exact M2|]. split.
      - intros c i p Hp. destruct (V1 c i p Hp) as [V3 V4], (V2 c i p Hp) as [V5 V6].
        rewrite V5, V3, V6, V4. unfold ProxySpec.half. cbn [sumlist m_left m_right m_lbv m_rbv]. split; lra.
      - intros i l r v En. rewrite N3, N4.
        assert (Hn : nth_error (map (fun e => (fst (fst e), snd e)) eqs) i = Some (l, v)) by (rewrite nth_error_map, En; reflexivity).
        assert (Hn' : nth_error (map (fun e => (snd (fst e), snd e)) eqs) i = Some (r, v)) by (rewrite nth_error_map, En; reflexivity).
        destruct (L3 _ _ _ Hn) as [S1 [_ [_ Z1]]], (R3 _ _ _ Hn') as [S2 [_ [_ Z2]]].
        split; [exact S1|]. split; [exact S2|]. split; [auto|]. split; [auto|].
        intro Hl. split; [apply Z1|apply Z2]; intros s t Ht; eapply Hl; eauto.
    Qed.

    Lemma dim_num i l r v : nth_error eqs i = Some (l, r, v) -> size (dim_of i) = num v.
    Proof. intro H. unfold dim_of. rewrite H. reflexivity. Qed.

    (** the rows of the proxy, tested, are the equation *)
    Lemma proxy_rows unknowns tss m m' : new_mp eqs unknowns = Some m -> parses tss m = Some m' ->
      forall i l r v, nth_error eqs i = Some (l, r, v) -> forall c,
        side c l = sumto (num v) (fun p => c v p * half c (m_left m') (m_lbv m') i p) + non_value nval c (nth i (m_lnon m') []) /\
        side c r = sumto (num v) (fun p => c v p * half c (m_right m') (m_rbv m') i p) + non_value nval c (nth i (m_rnon m') []).
    Proof.
      intros H HP i l r v En c. destruct (new_mp_ok _ _ _ _ H HP) as [lbv [rbv [_ [V K]]]].
      destruct (K _ _ _ _ En) as [S1 [S2 _]]. rewrite S1, S2.
      rewrite <- (dim_num _ _ _ _ En).
      split; f_equal; apply sumto_ext; intros p Hp; destruct (V c i p Hp) as [V1 V2]; rewrite ?V1, ?V2; reflexivity.
    Qed.
    Lemma good_upd pick i l r v e c w p :
      nth_error eqs i = Some (l, r, v) -> (forall s t, In (s, t) (pick (l, r)) -> once v t) ->
      (forall x, In x e -> good pick i (snd x)) ->
      entry_value (upd c v w) e p 0 = entry_value c e p 0.
    Proof.
      intros En Ho He. unfold ProxySpec.entry_value. apply sumlist_ext. intros x Hx. f_equal.
      destruct (He x Hx) as [_ C]. specialize (C _ _ _ En Ho).
      eapply clean_value; [exact C|]. intros f [s [t [_ [_ Hf]]]] q. unfold upd.
      destruct (Nat.eqb_spec f v); [contradiction|reflexivity].
    Qed.
    (** solving the equations is that the rows agree *)
    Lemma solves_rows unknowns tss m m' : new_mp eqs unknowns = Some m -> parses tss m = Some m' ->
      (forall l r v s t, In (l, r, v) eqs -> In (s, t) l \/ In (s, t) r -> linear t /\ once v t) ->
      forall c, solves c eqs <->
        forall i l r v p, nth_error eqs i = Some (l, r, v) -> (p < num v)%nat ->
          half c (m_left m') (m_lbv m') i p = half c (m_right m') (m_rbv m') i p.
    Proof.
      intros H HP Ho c. destruct (new_mp_ok _ _ _ _ H HP) as [lbv [rbv [_ [V K]]]].
      assert (S : forall i l r v, nth_error eqs i = Some (l, r, v) -> forall w,
                side (upd c v w) l = sumto (num v) (fun p => w p * half c (m_left m') (m_lbv m') i p) /\
                side (upd c v w) r = sumto (num v) (fun p => w p * half c (m_right m') (m_rbv m') i p)).
      { intros i l r v En w. destruct (K _ _ _ _ En) as [S1 [S2 [G1 [G2 Z]]]].
        pose proof (nth_error_In _ _ En) as Hin.
        destruct Z as [Z1 Z2]; [intros s t Ht; eapply Ho; eauto|].
        rewrite S1, S2, Z1, Z2. unfold non_value. cbn [sumlist]. rewrite !Rplus_0_r.
        split; apply sumto_ext; intros p Hp; rewrite <- (dim_num _ _ _ _ En) in Hp;
          destruct (V c i p Hp) as [V1 V2].
        - rewrite V1. unfold upd at 1. rewrite Nat.eqb_refl. f_equal. eapply (good_upd fst); eauto.
          intros s t Ht. eapply Ho; eauto.
        - rewrite V2. unfold upd at 1. rewrite Nat.eqb_refl. f_equal. eapply (good_upd snd); eauto.
          intros s t Ht. eapply Ho; eauto. }
      split.
      - intros Hs i l r v p En Hp. pose proof (nth_error_In _ _ En) as Hin.
        specialize (Hs _ _ _ Hin (fun k => if (p =? k)%nat then 1 else 0)).
        destruct (S _ _ _ _ En (fun k => if (p =? k)%nat then 1 else 0)) as [S1 S2].
        rewrite S1, S2 in Hs. cbv beta in Hs. rewrite !(sumto_delta _ _ _ Hp) in Hs. exact Hs.
      - intros Hr l r v Hin w. apply In_nth_error in Hin. destruct Hin as [i En].
        destruct (S _ _ _ _ En w) as [-> ->]. apply sumto_ext. intros p Hp. f_equal. eauto.
    Qed.

    (** the system has the same rows *)
    Lemma parse_ls_ok (GL GR : nat -> arr -> Prop) m sys :
      (forall i a, GL i a -> well (dim_of i) a) -> (forall i a, GR i a -> well (dim_of i) a) ->
      mp_ok GL GR (length eqs) m ->
      parse_ls space degree d_space tr_space other m = Some sys ->
      length (l_b sys) = length eqs /\ length (l_A sys) = length eqs /\ length (l_x sys) = length eqs /\
      block_ok GL (length eqs) (l_A sys, l_x sys) /\ rest_ok GR (l_b sys) /\
      forall c i p, (i < length eqs)%nat -> (p < size (dim_of i))%nat ->
        row_value c c (nth i (l_A sys) []) (l_x sys) p = half c (m_left m) (m_lbv m) i p /\
        entry_value c (nth i (l_b sys) []) p 0 = half c (m_right m) (m_rbv m) i p.
    Proof.
      intros WL WR [L1 [L2 [L3 [L4 [L5 L6]]]]] H. unfold parse_ls in H.
      destruct (vec_is_empty (m_lbv m)) eqn:Ee; [|discriminate].
      destruct (m_left m) as [|[A x] [|? ?]] eqn:El; try discriminate.
      destruct (add_blocks _ _ _ _ _ (m_right m) (empty_vec (length (m_rbv m)))) as [b|] eqn:Eb; [|discriminate].
      destruct (add_vecs _ _ _ _ _ (m_rbv m) b) as [b'|] eqn:Ev; [|discriminate].
      unfold new_ls in H. destruct ((_ && _ && _ && _)%bool) eqn:Ec in H; [|discriminate]. injection H as <-.
      rewrite !andb_true_iff in Ec. destruct Ec as [[[C1 C2] _] _]. apply Nat.eqb_eq in C1, C2. cbn [l_A l_x l_b].
      assert (Ln : length (empty_vec (length (m_rbv m))) = length eqs) by (unfold empty_vec; rewrite repeat_length; exact L2).
      apply (add_blocks_ok dim_of GR WR) in Eb; [|rewrite Ln; exact L6|
        intros i y Hy; unfold empty_vec in Hy; rewrite nth_repeat' in Hy; destruct (i <? length (m_rbv m))%nat; contradiction].
      destruct Eb as [B1 [B2 B3]]. apply add_vecs_nth in Ev. destruct Ev as [V1 [V2 V3]].
      pose proof L5 as L5'. inversion L5' as [|? ? Hblk _]; subst. pose proof Hblk as [K1 _]. cbn [fst snd] in K1.
      split; [congruence|]. split; [exact K1|]. split; [congruence|]. split; [exact Hblk|]. split.
      - intros i y Hy. rewrite V3 in Hy. apply in_app_iff in Hy. destruct Hy; auto.
      - intros c i p Hi Hp. unfold ProxySpec.half. split.
        + cbn [sumlist]. unfold ProxySpec.block_value. cbn [fst snd]. rewrite (vec_empty_nth _ i Ee).
          unfold ProxySpec.entry_value. cbn. lra.
        + rewrite V3, entry_value_app. rewrite B3 by (rewrite ?Ln; assumption).
          unfold empty_vec. rewrite nth_repeat'.
          replace (if (i <? length (m_rbv m))%nat then [] else []) with (@nil (sgn * arr)) by (destruct (i <? length (m_rbv m))%nat; reflexivity).
          unfold ProxySpec.entry_value at 1. cbn [sumlist]. lra.
    Qed.

    Lemma good_well pick i a : good pick i a -> well (dim_of i) a.
    Proof. intros [W _]. exact W. Qed.

    (** A and b may be evaluated before the coefficients of the unknowns are known *)
    Lemma row_value_clean c0 c1 c targets p : forall row,
      (forall k f x, nth_error targets k = Some f -> In x (nth k row []) -> exists P, clean P (snoc (snd x) f)) ->
      row_value c0 c row targets p = row_value c1 c row targets p.
    Proof.
      induction targets as [|f targets IH]; intros [|e row] H; cbn; auto.
      f_equal.
      - apply sumto_ext. intros k _. f_equal. unfold ProxySpec.entry_value. apply sumlist_ext. intros x Hx. f_equal.
        destruct (H 0%nat f x eq_refl Hx) as [P C]. eapply snoc_clean_value. exact C.
      - apply IH. intros k g x Hk Hx. apply (H (S k) g x Hk Hx).
    Qed.

    Lemma ls_solves unknowns tss m m' sys : new_mp eqs unknowns = Some m -> parses tss m = Some m' -> to_ls m' = Some sys ->
      (forall l r v s t, In (l, r, v) eqs -> In (s, t) l \/ In (s, t) r -> linear t /\ once v t) ->
      (forall l r v s t f, In (l, r, v) eqs -> In (s, t) r -> In f (forms_in t) -> ~ In f (l_x sys)) ->
      forall c0 c, (forall f, ~ In f (l_x sys) -> forall p, c f p = c0 f p) ->
        (solves c eqs <->
         ls_holds space degree d_space tr_space size mat par other c0 c sys
           (fun i => match nth_error eqs i with Some (_, _, v) => num v | None => 0%nat end)).
    Proof.
      intros H HP HL Ho Hu c0 c Hc.
      rewrite (solves_rows _ _ _ _ H HP Ho c).
      destruct (new_mp_ok _ _ _ _ H HP) as [lbv [rbv [M [V K]]]].
      unfold ProxyModel.to_ls in HL. destruct (_ && _)%bool; [|discriminate].
      apply (parse_ls_ok (good fst) (good snd)) in HL; [|apply good_well|apply good_well|exact M].
      destruct HL as [Lb [LA [Lx [[_ [_ BA]] [Bb Rows]]]]]. cbn [fst snd] in BA.
      assert (E : forall i l r v p, nth_error eqs i = Some (l, r, v) -> (p < num v)%nat ->
                row_value c0 c (nth i (l_A sys) []) (l_x sys) p = half c (m_left m') (m_lbv m') i p /\
                entry_value c0 (nth i (l_b sys) []) p 0 = half c (m_right m') (m_rbv m') i p).
      { intros i l r v p En Hp. assert (Hi : (i < length eqs)%nat) by (apply nth_error_Some; congruence).
        pose proof (nth_error_In _ _ En) as Hin.
        rewrite <- (dim_num _ _ _ _ En) in Hp. destruct (Rows c i p Hi Hp) as [R1 R2]. split.
        - rewrite <- R1. apply row_value_clean. intros k f x Hk Hx. destruct (BA _ _ _ _ Hk Hx) as [_ C].
          eexists. apply (C _ _ _ En). intros s t Ht. eapply Ho; eauto.
        - rewrite <- R2. unfold ProxySpec.entry_value. apply sumlist_ext. intros x Hx. f_equal.
          destruct (Bb _ _ Hx) as [_ C]. specialize (C _ _ _ En).
          eapply clean_value; [apply C; intros s t Ht; eapply Ho; eauto|].
          intros f [s [t [Ht [Hf _]]]] q. symmetry. apply Hc. eapply Hu; eauto. }
      unfold ls_holds. split.
      - intros Hr i p Hi Hp. destruct (nth_error eqs i) as [[[l r] v]|] eqn:En; [|lia].
        destruct (E _ _ _ _ p En Hp) as [-> ->]. eauto.
      - intros Hr i l r v p En Hp. destruct (E _ _ _ _ p En Hp) as [<- <-]. apply Hr.
        + rewrite Lb. apply nth_error_Some. congruence.
        + rewrite En. exact Hp.
    Qed.

    (** with nonlinear terms *)
    Lemma nls_rows unknowns tss m m' sys non : new_mp eqs unknowns = Some m -> parses tss m = Some m' -> to_nls m' = Some (sys, non) ->
      forall i l r v, nth_error eqs i = Some (l, r, v) -> forall c,
        side c l - side c r =
        sumto (num v) (fun p => c v p * (row_value c c (nth i (l_A sys) []) (l_x sys) p - entry_value c (nth i (l_b sys) []) p 0))
        + non_value nval c (nth i non []).
    Proof.
      intros H HP HL i l r v En c.
      destruct (proxy_rows _ _ _ _ H HP _ _ _ _ En c) as [-> ->].
      destruct (new_mp_ok _ _ _ _ H HP) as [lbv [rbv [M [V K]]]].
      unfold ProxyModel.to_nls in HL. destruct (_ && _)%bool; [discriminate|].
      destruct (parse_ls _ _ _ _ _ m') as [sys'|] eqn:Ep; [|discriminate].
      destruct (no_terms (m_rnon m')) eqn:En0; [|discriminate]. injection HL as <- <-.
      apply (parse_ls_ok (good fst) (good snd)) in Ep; [|apply good_well|apply good_well|exact M].
      destruct Ep as [_ [_ [_ [_ [_ Rows]]]]].
      assert (Hi : (i < length eqs)%nat) by (apply nth_error_Some; congruence).
      assert (Z : nth i (m_rnon m') [] = []).
      { clear - En0. revert i. induction (m_rnon m') as [|x q IH]; intros [|i]; cbn in *; auto; destruct x; try discriminate; auto. }
      rewrite Z. unfold non_value at 2. cbn [sumlist].
      rewrite (sumto_ext _ (fun p => c v p * (row_value c c (nth i (l_A sys') []) (l_x sys') p - entry_value c (nth i (l_b sys') []) p 0))
                 (fun p => c v p * half c (m_left m') (m_lbv m') i p + (-1) * (c v p * half c (m_right m') (m_rbv m') i p))).
      - rewrite sumto_add, sumto_scal. lra.
      - intros p Hp. rewrite <- (dim_num _ _ _ _ En) in Hp. destruct (Rows c i p Hi Hp) as [-> ->]. lra.
    Qed.
    (** the unknowns of the system are those asked for *)
    Lemma parse_side_targets targets mvs v mvs' rest : parse_side space degree d_space tr_space other targets mvs v = Some (mvs', rest) ->
      forall b, In b mvs' -> In b mvs \/ snd b = targets.
    Proof.
      unfold parse_side. destruct (parse_rows _ _ _ _ _ _ _ _ _) as [[bm r]|]; [|discriminate]. intros [= <- <-] b Hb.
      destruct (mat_is_empty bm); [left; exact Hb|]. apply in_app_iff in Hb. destruct Hb as [Hb|[<-|[]]]; auto.
    Qed.
    Lemma parse_targets targets m m' : parse space degree d_space tr_space other targets m = Some m' ->
      forall b, In b (m_left m') -> In b (m_left m) \/ snd b = targets.
    Proof.
      unfold parse. destruct (_ <=? _)%nat; [|discriminate].
      destruct (parse_side _ _ _ _ _ targets (m_left m) _) as [[l lb]|] eqn:E; [|discriminate].
      destruct (parse_side _ _ _ _ _ targets (m_right m) _) as [[r rb]|]; [|discriminate].
      intros [= <-]. cbn [m_left]. eapply parse_side_targets. exact E.
    Qed.
    Lemma parses_targets tss : forall m m', parses tss m = Some m' ->
      forall b, In b (m_left m') -> In b (m_left m) \/ In (snd b) tss.
    Proof.
      induction tss as [|ts tss IH]; intros m m' H b Hb; cbn [ProxySpec.parses] in H.
      - injection H as <-. auto.
      - destruct (parse _ _ _ _ _ ts m) as [m1|] eqn:E; [|discriminate].
        destruct (IH _ _ H _ Hb) as [H1|H1]; [|cbn; auto]. destruct (parse_targets _ _ _ E _ H1); cbn; auto.
    Qed.
    Lemma ls_unknowns unknowns tss m m' sys : new_mp eqs unknowns = Some m -> parses tss m = Some m' -> to_ls m' = Some sys ->
      In (l_x sys) (unknowns :: tss) /\ length (l_x sys) = length eqs.
    Proof.
      intros H HP HL. split.
      - unfold ProxyModel.to_ls, parse_ls in HL. destruct (_ && _)%bool; [|discriminate].
        destruct (vec_is_empty _); [|discriminate]. destruct (m_left m') as [|[A x] [|? ?]] eqn:El; try discriminate.
        destruct (add_blocks _ _ _ _ _ _ _) as [b|]; [|discriminate]. destruct (add_vecs _ _ _ _ _ _ _) as [b'|]; [|discriminate].
        unfold new_ls in HL. destruct (_ && _)%bool; [|discriminate]. injection HL as <-. cbn [l_x].
        destruct (parses_targets _ _ _ HP (A, x)) as [K|K]; [rewrite El; cbn; auto| |cbn; auto].
        unfold ProxyModel.new_mp in H.
        destruct (sides_ap _ _ _ _ _ _ _) as [L1|]; [|discriminate]. destruct (sides_ap _ _ _ _ _ _ _) as [R1|]; [|discriminate].
        destruct (sort_all _ _ _ _ _ L1) as [[? ?]|]; [|discriminate]. destruct (sort_all _ _ _ _ _ R1) as [[? ?]|]; [|discriminate].
        destruct (parse_targets _ _ _ H _ K) as [[]|E]. cbn in E. subst. left. reflexivity.
      - destruct (new_mp_ok _ _ _ _ H HP) as [lbv [rbv [M _]]].
        unfold ProxyModel.to_ls in HL. destruct (_ && _)%bool; [|discriminate].
        apply (parse_ls_ok (good fst) (good snd)) in HL; [|apply good_well|apply good_well|exact M]. apply HL.
    Qed.
    (** what remains beside the blocks has no target *)
    Lemma parse_free unknowns tss targets m m' m'' : new_mp eqs unknowns = Some m -> parses tss m = Some m' ->
      parse space degree d_space tr_space other targets m' = Some m'' ->
      (length targets <= length eqs)%nat /\
      forall i x, In x (nth i (m_lbv m'') []) \/ In x (nth i (m_rbv m'') []) ->
        forall cs f, a_comps (snd x) = cs ++ [(Vec f, false)] -> ~ In f targets.
    Proof.
      intros H HP Hp. destruct (new_mp_ok _ _ _ _ H HP) as [lbv [rbv [M _]]].
      destruct (parse_ok dim_of (good fst) (good snd) _ _ _ _ (good_well fst) (good_well snd) M Hp) as [_ [_ [_ [HL [F _]]]]].
      split; [exact HL|]. intros i x Hx. apply (F i x Hx).
    Qed.
  End Equations.

  (* -------------------------------------------------------------- evaluation *)

  Lemma sumn_sumto n f : sumn n f = sumto n f.
  Proof. induction n; cbn; congruence. Qed.
  Lemma scalar_num k : scalar_value par k = num_value par k.
  Proof. induction k; cbn; congruence. Qed.
  Lemma chain_product c l : forall x r i j,
    chain size (root_shape space degree d_space tr_space other) (entry_of mat c) (product c (x :: r)) (snd (comp_shape (last r x))) l i j
    = product c ((x :: r) ++ l) i j.
  Proof.
    induction l as [|y l IH]; intros x r i j; cbn [chain].
    - rewrite app_nil_r. reflexivity.
    - replace ((x :: r) ++ y :: l) with ((x :: (r ++ [y])) ++ l) by (cbn; rewrite <- app_assoc; reflexivity).
      rewrite <- IH.
      replace (last (r ++ [y]) x) with y by (symmetry; apply last_last).
      replace (inner_dim (root_shape space degree d_space tr_space other) y) with (snd (comp_shape y)).
      + assert (Ex : forall a b d, (forall i j, a i j = b i j) -> forall i j,
                  chain size (root_shape space degree d_space tr_space other) (entry_of mat c) a d l i j
                  = chain size (root_shape space degree d_space tr_space other) (entry_of mat c) b d l i j).
        { clear. induction l as [|z l IH]; intros a b d H i j; cbn; auto. apply IH. intros. rewrite !sumn_sumto. apply sumto_ext. intros. rewrite H. reflexivity. }
        apply Ex. intros. change (x :: r ++ [y]) with ((x :: r) ++ [y]).
        rewrite sumn_sumto, product_snoc, width_shape. reflexivity.
      + unfold inner_dim, ProxyModel.comp_shape. destruct root_shape as [p q]. destruct (snd y); reflexivity.
  Qed.
  Lemma block_static_value c e M :
    block_static size (root_shape space degree d_space tr_space other) (entry_of mat c) par e = Some M ->
    forall i j, M i j = entry_value c e i j.
  Proof.
    assert (T : forall x m, term_static size (root_shape space degree d_space tr_space other) (entry_of mat c) par x = Some m ->
              forall i j, m i j = sg (fst x) * arr_value c (snd x) i j).
    { intros [s a] m Hm i j. unfold term_static, comps_value in Hm. cbn [fst snd] in *.
      destruct (a_comps a) as [|y l] eqn:Ea; [discriminate|]. injection Hm as <-.
      unfold ProxySpec.arr_value. rewrite Ea, scalar_num.
      replace (chain size _ _ (comp_value (entry_of mat c) y) _ l i j) with (product c (y :: l) i j).
      - destruct (Req_EM_T (num_value par (a_factor a)) 1) as [->|]; destruct s; cbn [sg]; lra.
      - symmetry. etransitivity; [|apply (chain_product c l y [])]. cbn [last].
        replace (inner_dim (root_shape space degree d_space tr_space other) y) with (snd (comp_shape y)); [reflexivity|].
        unfold inner_dim, ProxyModel.comp_shape. destruct root_shape as [p q]. destruct (snd y); reflexivity. }
    assert (S : forall e acc M, entry_static size (root_shape space degree d_space tr_space other) (entry_of mat c) par acc e = Some M ->
              forall i j, M i j = acc i j + entry_value c e i j).
    { induction e0 as [|x e0 IH]; intros acc M0 H i j; cbn [entry_static] in H.
      - injection H as <-. cbn. lra.
      - destruct (term_static _ _ _ _ x) as [m|] eqn:E; [|discriminate]. rewrite (IH _ _ H), (T _ _ E).
        unfold ProxySpec.entry_value. cbn. lra. }
    destruct e as [|x e]; cbn [block_static]; intros H i j.
    - injection H as <-. reflexivity.
    - destruct (term_static _ _ _ _ x) as [m|] eqn:E; [|discriminate]. rewrite (S _ _ _ H), (T _ _ E). reflexivity.
  Qed.
End Proofs.
