(** Boxes cut into the cells of a grid: sizes add up exactly when boxes cover. *)
From Coq Require Import QArith Qabs List Lqa Lia Bool Permutation.
From Verif Require Import AxisModel.
Import ListNotations.
Local Open Scope Q_scope.

Notation ivl := (Q * Q)%type.
Notation nbox := (list (Q * Q)).

Definition width (c : ivl) : Q := snd c - fst c.
Definition insideb (c b : ivl) : bool := Qle_bool (fst b) (fst c) && Qle_bool (snd c) (snd b).
Fixpoint measure (b : nbox) : Q := match b with [] => 1 | i :: r => width i * measure r end.

Fixpoint cells1 (A : list Q) : list ivl :=
  match A with
  | a :: ((a' :: _) as r) => (a, a') :: cells1 r
  | _ => []
  end.

Fixpoint cells (G : list (list Q)) : list nbox :=
  match G with
  | [] => [[]]
  | A :: r => flat_map (fun c => map (cons c) (cells r)) (cells1 A)
  end.

Fixpoint inside (c b : nbox) : bool :=
  match c, b with
  | [], [] => true
  | x :: c', y :: b' => insideb x y && inside c' b'
  | _, _ => false
  end.

Fixpoint in_box (p : list Q) (b : nbox) : Prop :=
  match p, b with
  | [], [] => True
  | x :: p', i :: b' => fst i <= x /\ x <= snd i /\ in_box p' b'
  | _, _ => False
  end.

Fixpoint in_open (p : list Q) (b : nbox) : Prop :=
  match p, b with
  | [], [] => True
  | x :: p', i :: b' => fst i < x /\ x < snd i /\ in_open p' b'
  | _, _ => False
  end.

Fixpoint asc (A : list Q) : Prop :=
  match A with
  | a :: ((a' :: _) as r) => a < a' /\ asc r
  | _ => True
  end.

Definition QIn (x : Q) (A : list Q) : Prop := exists y, In y A /\ x == y.

Definition ind (b : bool) : Q := if b then 1 else 0.

(** ** sums *)
Lemma qsum_cons : forall x l, qsum (x :: l) == x + qsum l.
Proof. reflexivity. Qed.

Lemma qsum_app : forall l m, qsum (l ++ m) == qsum l + qsum m.
Proof.
  induction l as [|x l IH]; intros m; cbn [app]; [unfold qsum at 2; cbn; ring|].
  rewrite !qsum_cons, IH; ring.
Qed.

Lemma qsum_ext : forall {T} (f g : T -> Q) l, (forall x, In x l -> f x == g x) ->
  qsum (map f l) == qsum (map g l).
Proof.
  intros T f g l; induction l as [|x l IH]; intros H; [reflexivity|].
  cbn [map]; rewrite !qsum_cons, (H x (or_introl eq_refl)), IH; [reflexivity|].
  intros y Hy; apply H; right; exact Hy.
Qed.

Lemma qsum_scale : forall {T} (f : T -> Q) k l, qsum (map (fun x => k * f x) l) == k * qsum (map f l).
Proof.
  intros T f k l; induction l as [|x l IH]; [cbn; ring|].
  cbn [map]; rewrite !qsum_cons, IH; ring.
Qed.

Lemma qsum_add : forall {T} (f g : T -> Q) l,
  qsum (map (fun x => f x + g x) l) == qsum (map f l) + qsum (map g l).
Proof.
  intros T f g l; induction l as [|x l IH]; [cbn; ring|].
  cbn [map]; rewrite !qsum_cons, IH; ring.
Qed.

Lemma qsum_zero : forall {T} (l : list T), qsum (map (fun _ => 0) l) == 0.
Proof. induction l as [|x l IH]; [reflexivity|]; cbn [map]; rewrite qsum_cons, IH; ring. Qed.

Lemma qsum_swap : forall {S T} (f : S -> T -> Q) l m,
  qsum (map (fun x => qsum (map (f x) m)) l) == qsum (map (fun y => qsum (map (fun x => f x y) l)) m).
Proof.
  intros S T f l m; induction l as [|x l IH].
  - cbn [map]. rewrite (qsum_ext (fun y => qsum []) (fun _ => 0) m) by (intros; reflexivity).
    rewrite qsum_zero; reflexivity.
  - cbn [map]. rewrite qsum_cons, IH.
    rewrite <- qsum_add. apply qsum_ext; intros y _; rewrite qsum_cons; reflexivity.
Qed.

Lemma qsum_nonneg : forall {T} (f : T -> Q) l, (forall x, In x l -> 0 <= f x) -> 0 <= qsum (map f l).
Proof.
  intros T f l; induction l as [|x l IH]; intros H; [cbn; lra|].
  cbn [map]; rewrite qsum_cons.
  assert (0 <= f x) by (apply H; left; reflexivity).
  assert (0 <= qsum (map f l)) by (apply IH; intros y Hy; apply H; right; exact Hy). lra.
Qed.

Lemma qsum_ge_one : forall {T} (f : T -> Q) l x, In x l -> (forall y, In y l -> 0 <= f y) ->
  f x <= qsum (map f l).
Proof.
  intros T f l; induction l as [|y l IH]; intros x Hx0 H; [destruct Hx0|]. destruct Hx0 as [E|Hx].
  - subst y. cbn [map]; rewrite qsum_cons.
    assert (0 <= qsum (map f l)) by (apply qsum_nonneg; intros; apply H; right; assumption). lra.
  - cbn [map]; rewrite qsum_cons.
    assert (0 <= f y) by (apply H; left; reflexivity).
    assert (f x <= qsum (map f l)) by (apply IH; [exact Hx|intros; apply H; right; assumption]). lra.
Qed.

Lemma qsum_filter : forall {T} (f : T -> Q) (p : T -> bool) l,
  qsum (map f (filter p l)) == qsum (map (fun x => f x * ind (p x)) l).
Proof.
  intros T f p l; induction l as [|x l IH]; [reflexivity|].
  cbn [filter map]; rewrite qsum_cons. destruct (p x); cbn [ind].
  - cbn [map]; rewrite qsum_cons, IH; ring.
  - rewrite IH; ring.
Qed.

Lemma qsum_flat_map_cons : forall {C D} (f : C -> Q) (g : D -> Q) (h : list C) (rest : list D) {E} (k : C -> D -> E) (F : E -> Q),
  (forall c d, F (k c d) == f c * g d) ->
  qsum (map F (flat_map (fun c => map (k c) rest) h)) == qsum (map f h) * qsum (map g rest).
Proof.
  intros C D f g h rest E k F H; induction h as [|c h IH]; [cbn; ring|].
  cbn [flat_map map]; rewrite map_app, qsum_app, IH, qsum_cons.
  rewrite map_map, (qsum_ext (fun x => F (k c x)) (fun x => f c * g x)) by (intros; apply H).
  rewrite qsum_scale; ring.
Qed.

(** ** one axis *)
Lemma asc_tail : forall a A, asc (a :: A) -> asc A.
Proof. intros a [|b A]; cbn; tauto. Qed.

Lemma asc_head : forall A a x, asc (a :: A) -> In x A -> a < x.
Proof.
  induction A as [|b A IH]; intros a x H Hx; [destruct Hx|]. destruct Hx as [E|Hx].
  - subst; cbn in H; tauto.
  - destruct H as [H1 H2]. specialize (IH b x H2 Hx). lra.
Qed.

Lemma cells1_pos : forall A c, asc A -> In c (cells1 A) -> fst c < snd c.
Proof.
  induction A as [|a A IH]; intros c H Hc; [destruct Hc|].
  destruct A as [|b A]; [destruct Hc|].
  destruct Hc as [E|Hc]; [subst c; cbn; cbn in H; tauto|].
  apply IH; [exact (asc_tail _ _ H)|exact Hc].
Qed.

Lemma cells1_in : forall A c, In c (cells1 A) -> In (fst c) A /\ In (snd c) A.
Proof.
  induction A as [|a A IH]; intros c Hc; [destruct Hc|].
  destruct A as [|b A]; [destruct Hc|].
  destruct Hc as [E|Hc]; [subst c; split; cbn; tauto|].
  destruct (IH c Hc); split; right; assumption.
Qed.

Lemma cells1_dich : forall A c e, asc A -> In c (cells1 A) -> In e A -> e <= fst c \/ snd c <= e.
Proof.
  induction A as [|a A IH]; intros c e H Hc He; [destruct Hc|].
  destruct A as [|b A]; [destruct Hc|].
  destruct Hc as [E|Hc].
  - subst c; cbn [fst snd]. destruct He as [E|He]; [left; subst; lra|].
    right. destruct He as [E|He]; [subst; lra|].
    assert (b < e) by (exact (asc_head A b e (asc_tail _ _ H) He)). lra.
  - destruct He as [E|He].
    + left. subst e. pose proof (asc_head _ _ _ H (proj1 (cells1_in _ _ Hc))). lra.
    + exact (IH c e (asc_tail _ _ H) Hc He).
Qed.

Lemma cells1_dichQ : forall A c e, asc A -> In c (cells1 A) -> QIn e A -> e <= fst c \/ snd c <= e.
Proof.
  intros A c e H Hc (y & Hy & E). destruct (cells1_dich A c y H Hc Hy); [left|right]; lra.
Qed.

Definition clamp (l u x : Q) : Q := if Qle_bool x l then l else if Qle_bool u x then u else x.

Lemma qle_iff : forall a b, Qle_bool a b = true <-> a <= b.
Proof. exact Qle_bool_iff. Qed.

Lemma qle_false : forall a b, Qle_bool a b = false <-> b < a.
Proof.
  intros a b; split; intros H.
  - destruct (Qlt_le_dec b a) as [L|L]; [exact L|].
    apply Qle_bool_iff in L; congruence.
  - destruct (Qle_bool a b) eqn:E; [|reflexivity].
    apply Qle_bool_iff in E; lra.
Qed.

Ltac qb :=
  repeat match goal with
  | |- context [Qle_bool ?a ?b] => let E := fresh "E" in destruct (Qle_bool a b) eqn:E;
        [apply qle_iff in E | apply qle_false in E]
  | H : context [Qle_bool ?a ?b] |- _ => let E := fresh "E" in destruct (Qle_bool a b) eqn:E;
        [apply qle_iff in E | apply qle_false in E]
  end.

Lemma clamp_cell : forall A c l u, asc A -> In c (cells1 A) -> QIn l A -> QIn u A -> l <= u ->
  width c * ind (insideb c (l, u)) == clamp l u (snd c) - clamp l u (fst c).
Proof.
  intros A c l u H Hc Hl Hu L.
  pose proof (cells1_pos A c H Hc) as P.
  pose proof (cells1_dichQ A c l H Hc Hl) as D1.
  pose proof (cells1_dichQ A c u H Hc Hu) as D2.
  unfold clamp, insideb, width; cbn [fst snd]; qb; cbn [andb ind]; try lra.
Qed.

Lemma telescope : forall (f : Q -> Q) A a,
  qsum (map (fun c => f (snd c) - f (fst c)) (cells1 (a :: A))) == f (last (a :: A) 0) - f a.
Proof.
  intros f A; induction A as [|b A IH]; intros a; [cbn; ring|].
  change (cells1 (a :: b :: A)) with ((a, b) :: cells1 (b :: A)).
  cbn [map]; rewrite qsum_cons, IH; cbn [fst snd].
  change (last (a :: b :: A) 0) with (last (b :: A) 0). ring.
Qed.

Lemma asc_last : forall A a x, asc (a :: A) -> In x (a :: A) -> x <= last (a :: A) 0.
Proof.
  induction A as [|b A IH]; intros a x H Hx.
  - destruct Hx as [E|[]]; subst; cbn; lra.
  - change (last (a :: b :: A) 0) with (last (b :: A) 0).
    destruct Hx as [E|Hx]; [|apply IH; [exact (asc_tail _ _ H)|exact Hx]].
    subst x. destruct H as [H1 H2].
    pose proof (IH b b H2 (or_introl eq_refl)). lra.
Qed.

Lemma width_cells : forall A l u, asc A -> QIn l A -> QIn u A -> l <= u ->
  qsum (map (fun c => width c * ind (insideb c (l, u))) (cells1 A)) == u - l.
Proof.
  intros A l u H Hl Hu L.
  rewrite (qsum_ext _ (fun c => clamp l u (snd c) - clamp l u (fst c)))
    by (intros c Hc; apply (clamp_cell A); assumption).
  destruct A as [|a A]; [destruct Hl as (y & [] & _)|].
  rewrite (telescope (clamp l u)).
  destruct Hl as (yl & Yl & El). destruct Hu as (yu & Yu & Eu).
  assert (B1 : clamp l u a == l).
  { unfold clamp. destruct Yl as [E|Yl]; [subst yl; qb; lra|].
    pose proof (asc_head _ _ _ H Yl). qb; lra. }
  assert (B2 : clamp l u (last (a :: A) 0) == u).
  { pose proof (asc_last A a yu H Yu). unfold clamp; qb; lra. }
  rewrite B1, B2; reflexivity.
Qed.

Lemma locate1 : forall A l u x, asc A -> QIn l A -> QIn u A -> l < u -> l <= x -> x <= u ->
  exists c, In c (cells1 A) /\ insideb c (l, u) = true /\ fst c <= x /\ x <= snd c.
Proof.
  induction A as [|a A IH]; intros l u x H Hl Hu L X1 X2; [destruct Hl as (y & [] & _)|].
  destruct A as [|b A].
  - exfalso. destruct Hl as (y & [E|[]] & E1); destruct Hu as (z & [E'|[]] & E2); subst; lra.
  - destruct (Qlt_le_dec l b) as [Lb|Lb].
    + (* l is a *)
      assert (El : l == a).
      { destruct Hl as (y & [E|[E|Hy]] & E1); [subst; exact E1|subst; lra|].
        pose proof (asc_head _ _ _ (asc_tail _ _ H) Hy). lra. }
      assert (Ub : b <= u).
      { destruct Hu as (y & [E|[E|Hy]] & E1); [subst; lra|subst; lra|].
        pose proof (asc_head _ _ _ (asc_tail _ _ H) Hy). lra. }
      destruct (Qlt_le_dec b x) as [Xb|Xb].
      * destruct (IH b u x (asc_tail _ _ H)) as (c & C1 & C2 & C3 & C4); try lra.
        -- exists b; split; [left; reflexivity|reflexivity].
        -- destruct Hu as (y & [E|Hy] & E1); [subst; lra|exists y; split; [exact Hy|exact E1]].
        -- exists c. split; [right; exact C1|]. split; [|split; assumption].
           unfold insideb in *; cbn [fst snd] in *. apply andb_true_iff in C2.
           destruct C2 as [C2 C5]; apply andb_true_iff; split; [|exact C5].
           apply qle_iff; apply qle_iff in C2. destruct H as [H _]. lra.
      * exists (a, b). split; [left; reflexivity|]. cbn [fst snd]. split; [|split; lra].
        unfold insideb; cbn [fst snd]. apply andb_true_iff; split; apply qle_iff; lra.
    + assert (Hl' : QIn l (b :: A)).
      { destruct Hl as (y & [E|Hy] & E1); [subst|exists y; split; assumption].
        destruct H as [H _]; lra. }
      assert (Hu' : QIn u (b :: A)).
      { destruct Hu as (y & [E|Hy] & E1); [subst|exists y; split; assumption].
        destruct H as [H _]; lra. }
      destruct (IH l u x (asc_tail _ _ H) Hl' Hu' L X1 X2) as (c & C1 & C2).
      exists c; split; [right; exact C1|exact C2].
Qed.

(** ** several axes *)
Definition ongrid (G : list (list Q)) (b : nbox) : Prop :=
  Forall2 (fun A i => QIn (fst i) A /\ QIn (snd i) A /\ fst i < snd i) G b.

Definition grid (G : list (list Q)) : Prop := Forall asc G.

Definition mid (c : nbox) : list Q := map (fun i => (fst i + snd i) / 2) c.

Lemma in_cells : forall A G c, In c (cells (A :: G)) <->
  exists i r, c = i :: r /\ In i (cells1 A) /\ In r (cells G).
Proof.
  intros A G c; cbn [cells]; rewrite in_flat_map; split.
  - intros (i & Hi & Hc). apply in_map_iff in Hc. destruct Hc as (r & E & Hr).
    exists i, r; repeat split; [symmetry; exact E|exact Hi|exact Hr].
  - intros (i & r & E & Hi & Hr). exists i; split; [exact Hi|].
    apply in_map_iff; exists r; split; [symmetry; exact E|exact Hr].
Qed.

Lemma ind_and : forall a b, ind (a && b) == ind a * ind b.
Proof. intros [|] [|]; cbn; ring. Qed.

Lemma measure_cells : forall G b, grid G -> ongrid G b ->
  qsum (map (fun c => measure c * ind (inside c b)) (cells G)) == measure b.
Proof.
  intros G b HG H; induction H as [|A i G b Hi H IH]; [cbn; ring|].
  inversion HG as [|? ? HA HG']; subst. destruct i as [l u]. destruct Hi as (H1 & H2 & H3); cbn [fst snd] in *.
  cbn [cells].
  rewrite (qsum_flat_map_cons (fun c => width c * ind (insideb c (l, u))) (fun r => measure r * ind (inside r b))
             (cells1 A) (cells G) cons).
  - rewrite (width_cells A l u HA H1 H2) by lra. rewrite (IH HG'). cbn [measure]. unfold width; cbn [fst snd]. reflexivity.
  - intros c d; cbn [measure inside]; rewrite ind_and; ring.
Qed.

Lemma cells_pos : forall G c, grid G -> In c (cells G) -> 0 < measure c.
Proof.
  induction G as [|A G IH]; intros c HG Hc.
  - destruct Hc as [E|[]]; subst; cbn; lra.
  - apply in_cells in Hc. destruct Hc as (i & r & -> & Hi & Hr). inversion HG; subst.
    cbn [measure]. assert (0 < width i) by (unfold width; pose proof (cells1_pos A i H1 Hi); lra).
    specialize (IH r H2 Hr). apply Qmult_lt_0_compat; assumption.
Qed.

Lemma mid_open : forall G c b, grid G -> In c (cells G) -> inside c b = true -> in_open (mid c) b.
Proof.
  induction G as [|A G IH]; intros c b HG Hc I.
  - destruct Hc as [E|[]]; subst. destruct b; [exact Logic.I|discriminate].
  - apply in_cells in Hc. destruct Hc as (i & r & -> & Hi & Hr). inversion HG; subst.
    destruct b as [|j b]; [discriminate|]. cbn [inside] in I. apply andb_true_iff in I. destruct I as [I1 I2].
    unfold insideb in I1. apply andb_true_iff in I1. destruct I1 as [I1 I3].
    apply qle_iff in I1. apply qle_iff in I3.
    pose proof (cells1_pos A i H1 Hi).
    cbn [mid map in_open]. split; [|split].
    + apply Qlt_shift_div_l; lra.
    + apply Qlt_shift_div_r; lra.
    + exact (IH r b H2 Hr I2).
Qed.

Lemma mid_in_inside : forall G c b, grid G -> ongrid G b -> In c (cells G) -> in_box (mid c) b -> inside c b = true.
Proof.
  intros G c b HG H; revert c; induction H as [|A i G b Hi H IH]; intros c Hc M.
  - destruct Hc as [E|[]]; subst; reflexivity.
  - apply in_cells in Hc. destruct Hc as (j & r & -> & Hj & Hr). inversion HG; subst.
    cbn [mid map in_box] in M. destruct M as (M1 & M2 & M3).
    cbn [inside]. apply andb_true_iff; split; [|exact (IH H3 r Hr M3)].
    pose proof (cells1_pos A j H2 Hj).
    destruct Hi as (I1 & I2 & I3).
    assert (E : (fst j + snd j) / 2 == (fst j + snd j) * (1 # 2)) by (field).
    unfold insideb. apply andb_true_iff; split; apply qle_iff.
    + destruct (cells1_dichQ A j (fst i) H2 Hj I1); lra.
    + destruct (cells1_dichQ A j (snd i) H2 Hj I2); lra.
Qed.

Lemma locate : forall G b p, grid G -> ongrid G b -> in_box p b ->
  exists c, In c (cells G) /\ inside c b = true /\ in_box p c.
Proof.
  intros G b p HG H; revert p; induction H as [|A i G b Hi H IH]; intros p Hp.
  - destruct p; [|destruct Hp]. exists []; repeat split; left; reflexivity.
  - destruct p as [|x p]; [destruct Hp|]. destruct Hp as (P1 & P2 & P3). inversion HG; subst.
    destruct Hi as (I1 & I2 & I3).
    destruct (locate1 A (fst i) (snd i) x H2 I1 I2 I3 P1 P2) as (c & C1 & C2 & C3 & C4).
    destruct (IH H3 p P3) as (r & R1 & R2 & R3).
    exists (c :: r). split; [apply in_cells; exists c, r; auto|].
    cbn [inside in_box]. rewrite <- surjective_pairing in C2. rewrite C2, R2. repeat split; assumption.
Qed.

Lemma inside_in_box : forall c b p, inside c b = true -> in_box p c -> in_box p b.
Proof.
  induction c as [|i c IH]; intros [|j b] [|x p] I P; try discriminate; try destruct P; [exact Logic.I|].
  cbn [inside] in I. apply andb_true_iff in I. destruct I as [I1 I2].
  unfold insideb in I1. apply andb_true_iff in I1. destruct I1 as [I1 I3].
  apply qle_iff in I1. apply qle_iff in I3. destruct H0.
  cbn [in_box]. split; [lra|]. split; [lra|]. exact (IH b p I2 H1).
Qed.

(** ** a list of boxes inside one box *)
Definition sepb (l : list nbox) : Prop :=
  forall i j x y, i <> j -> nth_error l i = Some x -> nth_error l j = Some y ->
  forall p, ~ (in_open p x /\ in_open p y).

Definition covered (l : list nbox) (c : nbox) : bool := existsb (inside c) l.

Lemma sepb_tail : forall x l, sepb (x :: l) -> sepb l.
Proof. intros x l H i j a b D Ha Hb. exact (H (S i) (S j) a b (fun E => D (eq_add_S _ _ E)) Ha Hb). Qed.

Lemma count_cell : forall G l c, grid G -> In c (cells G) -> sepb l ->
  qsum (map (fun b => ind (inside c b)) l) == ind (covered l c).
Proof.
  intros G l c HG Hc; induction l as [|b l IH]; intros S; [reflexivity|].
  cbn [map covered existsb]; rewrite qsum_cons.
  fold (covered l c). rewrite (IH (sepb_tail _ _ S)).
  destruct (inside c b) eqn:E; cbn [orb]; [|cbn [ind]; ring].
  assert (F : covered l c = false).
  { destruct (covered l c) eqn:F; [|reflexivity]. exfalso.
    apply existsb_exists in F. destruct F as (b' & Hb' & E').
    apply In_nth_error in Hb'. destruct Hb' as (k & Hk).
    apply (S 0%nat (Datatypes.S k) b b' ltac:(discriminate) eq_refl Hk (mid c)).
    split; [exact (mid_open G c b HG Hc E)|exact (mid_open G c b' HG Hc E')]. }
  rewrite F; cbn [ind]; ring.
Qed.

Lemma sum_measures : forall G l, grid G -> Forall (ongrid G) l -> sepb l ->
  qsum (map measure l) == qsum (map (fun c => measure c * ind (covered l c)) (cells G)).
Proof.
  intros G l HG Hl S.
  rewrite (qsum_ext measure (fun b => qsum (map (fun c => measure c * ind (inside c b)) (cells G))) l).
  - rewrite qsum_swap. apply qsum_ext; intros c Hc.
    rewrite (qsum_scale (fun b => ind (inside c b))). rewrite (count_cell G l c HG Hc S). reflexivity.
  - intros b Hb. symmetry. apply measure_cells; [exact HG|]. rewrite Forall_forall in Hl; exact (Hl b Hb).
Qed.

Definition covers (l : list nbox) (b : nbox) : Prop := forall p, in_box p b -> exists r, In r l /\ in_box p r.

(** The size missing from the sum is that of the cells left out. *)
Lemma missing : forall G l b, grid G -> ongrid G b -> Forall (ongrid G) l -> sepb l ->
  (forall r, In r l -> forall p, in_box p r -> in_box p b) ->
  measure b - qsum (map measure l) ==
  qsum (map (fun c => measure c * ind (inside c b && negb (covered l c))) (cells G)).
Proof.
  intros G l b HG Hb Hl S Hin.
  rewrite (sum_measures G l HG Hl S), <- (measure_cells G b HG Hb).
  assert (E : forall (f g : nbox -> Q) m, qsum (map f m) - qsum (map g m) == qsum (map (fun c => f c - g c) m)).
  { intros f g m; induction m as [|c m IH]; [cbn; ring|]. cbn [map]; rewrite !qsum_cons, <- IH; ring. }
  rewrite E. apply qsum_ext; intros c Hc.
  destruct (covered l c) eqn:F; cbn [negb].
  - assert (I : inside c b = true).
    { apply existsb_exists in F. destruct F as (r & Hr & I).
      apply (mid_in_inside G); [exact HG|exact Hb|exact Hc|].
      apply (Hin r Hr).
      assert (O : in_open (mid c) r) by exact (mid_open G c r HG Hc I).
      clear -O. revert r O; induction (mid c) as [|x p IH]; intros [|j r] O; try exact O.
      cbn in *. destruct O as (O1 & O2 & O3). split; [lra|]. split; [lra|]. exact (IH r O3). }
    rewrite I; cbn [andb ind]; ring.
  - destruct (inside c b); cbn [andb ind]; ring.
Qed.

Lemma covers_cells : forall G l b, grid G -> ongrid G b -> Forall (ongrid G) l ->
  (covers l b <-> forall c, In c (cells G) -> inside c b = true -> covered l c = true).
Proof.
  intros G l b HG Hb Hl; split.
  - intros C c Hc I.
    assert (O : in_open (mid c) b) by exact (mid_open G c b HG Hc I).
    assert (O' : in_box (mid c) b).
    { clear -O. revert b O; induction (mid c) as [|x p IH]; intros [|j r] O; try exact O.
      cbn in *. destruct O as (O1 & O2 & O3). split; [lra|]. split; [lra|]. exact (IH r O3). }
    destruct (C _ O') as (r & Hr & Pr). apply existsb_exists. exists r; split; [exact Hr|].
    apply (mid_in_inside G); try assumption. rewrite Forall_forall in Hl; exact (Hl r Hr).
  - intros C p Hp. destruct (locate G b p HG Hb Hp) as (c & C1 & C2 & C3).
    specialize (C c C1 C2). apply existsb_exists in C. destruct C as (r & Hr & I).
    exists r; split; [exact Hr|exact (inside_in_box c r p I C3)].
Qed.

(** Sizes agree up to a tolerance below the size of every cell iff the boxes cover. *)
Theorem cover_iff : forall G l b t, grid G -> ongrid G b -> Forall (ongrid G) l -> sepb l ->
  (forall r, In r l -> forall p, in_box p r -> in_box p b) ->
  0 < t -> (forall c, In c (cells G) -> t <= measure c) ->
  (Qabs (measure b - qsum (map measure l)) < t <-> covers l b).
Proof.
  intros G l b t HG Hb Hl S Hin T Ht.
  pose proof (missing G l b HG Hb Hl S Hin) as M.
  rewrite (covers_cells G l b HG Hb Hl). rewrite M.
  assert (P : forall c, In c (cells G) -> 0 <= measure c * ind (inside c b && negb (covered l c))).
  { intros c Hc. pose proof (cells_pos G c HG Hc). destruct (inside c b && negb (covered l c)); cbn [ind]; lra. }
  split.
  - intros L c Hc I. destruct (covered l c) eqn:F; [reflexivity|exfalso].
    pose proof (qsum_ge_one (fun c => measure c * ind (inside c b && negb (covered l c))) (cells G) c Hc P) as K.
    cbn beta in K. rewrite I, F in K. cbn [negb andb ind] in K.
    rewrite Qabs_pos in L by (apply qsum_nonneg; exact P).
    specialize (Ht c Hc). lra.
  - intros C. rewrite (qsum_ext _ (fun _ => 0)).
    + rewrite qsum_zero. exact T.
    + intros c Hc. destruct (inside c b) eqn:I; [rewrite (C c Hc I)|]; cbn; ring.
Qed.

(** ** a grid from given numbers *)
Fixpoint qinsert (x : Q) (A : list Q) : list Q :=
  match A with
  | [] => [x]
  | a :: r => if Qle_bool a x then (if Qle_bool x a then A else a :: qinsert x r) else x :: A
  end.

Lemma qinsert_in : forall x A y, In y (qinsert x A) -> y = x \/ In y A.
Proof.
  intros x A; induction A as [|a A IH]; intros y H.
  - destruct H as [E|[]]; left; symmetry; exact E.
  - cbn [qinsert] in H. destruct (Qle_bool a x); [destruct (Qle_bool x a)|].
    + right; exact H.
    + destruct H as [E|H]; [right; left; exact E|].
      destruct (IH y H); [left|right; right]; assumption.
    + destruct H as [E|H]; [left; symmetry; exact E|right; exact H].
Qed.

Lemma qinsert_has : forall x A, QIn x (qinsert x A) /\ forall y, In y A -> In y (qinsert x A).
Proof.
  intros x A; induction A as [|a A (IH1 & IH2)].
  - split; [exists x; split; [left; reflexivity|reflexivity]|intros y []].
  - cbn [qinsert]. destruct (Qle_bool a x) eqn:E1; [destruct (Qle_bool x a) eqn:E2|].
    + apply qle_iff in E1; apply qle_iff in E2. split; [exists a; split; [left; reflexivity|lra]|auto].
    + split.
      * destruct IH1 as (y & Hy & E). exists y; split; [right; exact Hy|exact E].
      * intros y [E|Hy]; [left; exact E|right; exact (IH2 y Hy)].
    + split; [exists x; split; [left; reflexivity|reflexivity]|intros y Hy; right; exact Hy].
Qed.

Lemma asc_cons : forall a A, asc A -> (forall x, In x A -> a < x) -> asc (a :: A).
Proof. intros a [|b A] H L; [exact I|]. split; [apply L; left; reflexivity|exact H]. Qed.

Lemma qinsert_asc : forall x A, asc A -> asc (qinsert x A).
Proof.
  intros x A; induction A as [|a A IH]; intros H; [exact I|].
  cbn [qinsert]. destruct (Qle_bool a x) eqn:E1; [destruct (Qle_bool x a) eqn:E2|].
  - exact H.
  - apply qle_iff in E1; apply qle_false in E2. apply asc_cons; [exact (IH (asc_tail _ _ H))|].
    intros y Hy. apply qinsert_in in Hy. destruct Hy as [->|Hy]; [exact E2|exact (asc_head _ _ _ H Hy)].
  - apply qle_false in E1. apply asc_cons; [exact H|].
    intros y [<-|Hy]; [exact E1|]. pose proof (asc_head _ _ _ H Hy). lra.
Qed.

Definition mkgrid (L : list Q) : list Q := fold_right qinsert [] L.

Lemma mkgrid_asc : forall L, asc (mkgrid L).
Proof. induction L as [|x L IH]; [exact I|]. exact (qinsert_asc x _ IH). Qed.

Lemma mkgrid_in : forall L y, In y (mkgrid L) -> In y L.
Proof.
  induction L as [|x L IH]; intros y H; [destruct H|].
  apply qinsert_in in H. destruct H as [->|H]; [left; reflexivity|right; exact (IH y H)].
Qed.

Lemma mkgrid_has : forall L y, In y L -> QIn y (mkgrid L).
Proof.
  induction L as [|x L IH]; intros y H; [destruct H|]. destruct H as [E|H].
  - subst y. exact (proj1 (qinsert_has x _)).
  - destruct (IH y H) as (z & Hz & E). exists z; split; [|exact E].
    exact (proj2 (qinsert_has x _) z Hz).
Qed.

Lemma mkgrid_gap : forall L t, (forall x y, In x L -> In y L -> Qabs (x - y) <= t -> x == y) ->
  forall c, In c (cells1 (mkgrid L)) -> t < width c.
Proof.
  intros L t H c Hc. pose proof (cells1_pos _ _ (mkgrid_asc L) Hc) as P.
  destruct (cells1_in _ _ Hc) as (H1 & H2).
  destruct (Qlt_le_dec t (width c)) as [K|K]; [exact K|exfalso].
  assert (E : snd c == fst c); [|lra].
  apply H; [exact (mkgrid_in _ _ H2)|exact (mkgrid_in _ _ H1)|].
  unfold width in K. rewrite Qabs_pos; lra.
Qed.

Fixpoint qpow (t : Q) (n : nat) : Q := match n with O => 1 | S k => t * qpow t k end.

Lemma qpow_nonneg : forall t n, 0 <= t -> 0 <= qpow t n.
Proof.
  intros t n T; induction n as [|n IH]; [cbn; lra|]. cbn [qpow]. apply Qmult_le_0_compat; assumption.
Qed.

Lemma cells_size : forall G t, 0 <= t -> (forall A, In A G -> forall c, In c (cells1 A) -> t < width c) ->
  forall c, In c (cells G) -> qpow t (length G) <= measure c.
Proof.
  induction G as [|A G IH]; intros t T H c Hc.
  - destruct Hc as [E|[]]; subst; cbn; lra.
  - apply in_cells in Hc. destruct Hc as (i & r & -> & Hi & Hr).
    specialize (IH t T (fun A' HA' => H A' (or_intror HA')) r Hr).
    pose proof (H A (or_introl eq_refl) i Hi) as W.
    cbn [length measure qpow].
    pose proof (qpow_nonneg t (length G) T) as P.
    apply Qle_trans with (t * measure r).
    + rewrite (Qmult_comm t), (Qmult_comm t). apply Qmult_le_compat_r; [exact IH|exact T].
    + apply Qmult_le_compat_r; lra.
Qed.
