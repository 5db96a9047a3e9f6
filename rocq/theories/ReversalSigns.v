(** Proofs about the reversal of the dofs of faces in one element. *)
From Coq Require Import List Arith Reals Bool Lia Lra Psatz.
From Verif Require Import NdArray LocalNumberingModel PolyModel PolySpec PolyProofs FaceModel FaceSpec FaceProofs FaceThms FaceThms2 IncidenceModel IncidenceThms TriangleThms PolyCalc ReversalModel ReversalSpec.
Import ListNotations.

Lemma cw_of k t px py f : 1 <= px -> 1 <= py -> t <> CurvedTriangle -> f < faces_number t ->
  exists l lc c, ReversalModel.face_dofs k t px py f = Some l /\ face_dofs_cw k t px py f = Some (c, lc) /\
    ((c = 0 /\ l = lc /\ forall r, In r lc -> r < first_size k t px py) \/ (c = 1 /\ l = map (fun r => first_size k t px py + r) lc)).
Proof.
  intros Hx Hy Ht Hf. unfold faces_number in Hf.
  assert (AX : f < 4 -> face_axis f = 0 \/ face_axis f = 1) by (intros; unfold face_axis; do 4 (destruct f as [|f]; [cbn; auto|]); lia).
  assert (AT : tri_axis f = 0 \/ tri_axis f = 1) by (destruct f as [|[|f]]; cbn; auto).
  destruct k, t; try tauto; cbn [tri] in Hf; cbn [ReversalModel.face_dofs face_dofs_cw].
  1-4: destruct (htt_m2n2k1_inner_cw_ok px py f Hx Hy Hf) as (l & lc & E & F & W & B); exists l, lc, (1 - face_axis f); split; [exact E|]; split; [exact F|];
    destruct (AX Hf) as [A|A]; rewrite A in *; cbn [first_size tri]; cbn -[Nat.mul Nat.add] in *; [right|left]; split; auto; split; auto; rewrite W; cbn; apply map_id.
  1-2: destruct (inner_tri_cw_ok px py f Hx Hy Hf) as (l & lc & E & F & W & B); exists l, lc, (1 - tri_axis f); split; [exact E|]; split; [exact F|];
    destruct AT as [A|A]; rewrite A in *; cbn [first_size tri]; cbn -[Nat.mul Nat.add] in *; [right|left]; split; auto; split; auto; rewrite W; cbn; apply map_id.
  1-4: destruct (htt_m2n2k1_outer_cw_ok px py f Hx Hy Hf) as (l & lc & E & F & W & B); exists l, lc, (face_axis f); split; [exact E|]; split; [exact F|];
    destruct (AX Hf) as [A|A]; rewrite A in *; cbn [first_size tri]; cbn -[Nat.mul Nat.add] in *; [left|right]; split; auto; split; auto; rewrite W; cbn; apply map_id.
  1-2: destruct (outer_tri_cw_ok px py f Hx Hy Hf) as (l & lc & E & F & W & B); exists l, lc, (tri_axis f); split; [exact E|]; split; [exact F|];
    destruct AT as [A|A]; rewrite A in *; cbn [first_size tri]; cbn -[Nat.mul Nat.add] in *; [left|right]; split; auto; split; auto; rewrite W; cbn; apply map_id.
Qed.

(** * different faces have different dofs *)
Lemma ravel2 n m i j r : ravelF [n; m] [i; j] = Some r -> i < n /\ j < m /\ r = i + n * j.
Proof. cbn [ravelF]. destruct (Nat.ltb_spec i n); [|discriminate]. destruct (Nat.ltb_spec j m); [|discriminate]. intros H1. injection H1 as <-. repeat split; auto; lia. Qed.
Lemma slice2 b n m axis sd L r : axis < 2 -> at_side (FaceModel.of_arr (mk_arr b [n; m])) axis sd = Some L -> In r L ->
  match axis with
  | 0 => exists j, j < m /\ 0 < n /\ r = b + (match sd with Low => 0 | High => n - 1 end + n * j)
  | _ => exists i, i < n /\ 0 < m /\ r = b + (i + n * match sd with Low => 0 | High => m - 1 end)
  end.
Proof.
  intros A E I. destruct axis as [|[|axis]]; [| |lia].
  - destruct n as [|n]; [discriminate|]. destruct (at_side_spec (mk_arr b [S n; m]) 0 sd) as (L' & E' & _ & S' & _); [cbn; lia|cbn; lia|].
    rewrite E in E'. injection E' as <-. apply S' in I as (ix & Hi & Hr). cbn [remove a_shape] in Hi. apply in_indices_1 in Hi as (j & -> & Hj).
    exists j. split; [exact Hj|]. split; [lia|]. unfold aget in Hr. cbn [a_shape a_base nth FaceModel.insert] in Hr. destruct (ravelF _ _) as [q|] eqn:Q in Hr; [|discriminate]. injection Hr as <-.
    apply ravel2 in Q as (_ & _ & ->). destruct sd; reflexivity.
  - destruct m as [|m]; [discriminate|]. destruct (at_side_spec (mk_arr b [n; S m]) 1 sd) as (L' & E' & _ & S' & _); [cbn; lia|cbn; lia|].
    rewrite E in E'. injection E' as <-. apply S' in I as (ix & Hi & Hr). cbn [remove a_shape] in Hi. apply in_indices_1 in Hi as (j & -> & Hj).
    exists j. split; [exact Hj|]. split; [lia|]. unfold aget in Hr. cbn [a_shape a_base nth FaceModel.insert] in Hr. destruct (ravelF _ _) as [q|] eqn:Q in Hr; [|discriminate]. injection Hr as <-.
    apply ravel2 in Q as (_ & _ & ->). destruct sd; reflexivity.
Qed.
(** one array for each axis; its first number and its shape *)
Definition array_of (k : form) (t : etype) (px py axis : nat) : nat * (nat * nat) :=
  let rows := if tri t then px else px + 1 in
  match k, axis with
  | Outer, 0 => (0, (rows, py))
  | Outer, _ => (rows * py, (px, py + 1))
  | Inner, 0 => (px * (py + 1), (rows, py))
  | Inner, _ => (0, (px, py + 1))
  end.
Definition place_of (t : etype) (f : nat) : nat * side := if tri t then (tri_axis f, tri_side f) else (face_axis f, face_side f).
Lemma face_slice k t px py f l : ReversalModel.face_dofs k t px py f = Some l -> f < faces_number t /\ fst (place_of t f) < 2 /\ t <> CurvedTriangle /\
  at_side (FaceModel.of_arr (mk_arr (fst (array_of k t px py (fst (place_of t f)))) [fst (snd (array_of k t px py (fst (place_of t f)))); snd (snd (array_of k t px py (fst (place_of t f))))])) (fst (place_of t f)) (snd (place_of t f)) = Some l.
Proof.
  intros H. assert (Hf : f < faces_number t /\ t <> CurvedTriangle).
  { unfold faces_number. destruct k, t; cbn [tri]; cbn in H; try discriminate; split; try discriminate.
    all: try (destruct (Nat.lt_ge_cases f 4) as [|Q]; [assumption|exfalso; destruct (no_face_2d px py f Q) as (_ & Q1 & Q2 & _); congruence]).
    all: destruct (Nat.lt_ge_cases f 3) as [|Q]; [assumption|exfalso; destruct (no_face_tri px py f Q) as (_ & Q1 & Q2 & _); congruence]. }
  destruct Hf as [Hf Ht]. split; [exact Hf|]. unfold faces_number in Hf. unfold place_of.
  destruct (tri t) eqn:T.
  - split; [apply tri_bounds|]. split; [exact Ht|]. cbn [fst snd]. destruct k, t; try discriminate; try tauto; cbn in H; unfold htt_m2n2k1_inner_tri, htt_m2n2k1_outer_tri in H;
      rewrite ?e_inner_tri, ?e_outer_tri, (tri_place_eq f Hf) in H; destruct (tri_axis f); exact H.
  - destruct (quad_place_eq f Hf) as [E A]. split; [exact A|]. split; [exact Ht|]. cbn [fst snd]. destruct k, t; try discriminate; cbn in H; unfold htt_m2n2k1_inner, htt_m2n2k1_outer in H;
      rewrite ?e_m2n2k1_inner, ?e_m2n2k1_outer, E in H; destruct (face_axis f); exact H.
Qed.
Lemma place_inj t f g : f < faces_number t -> g < faces_number t -> place_of t f = place_of t g -> f = g.
Proof. unfold faces_number, place_of. destruct (tri t); intros Hf Hg; do 4 (destruct f as [|f]; [do 4 (destruct g as [|g]; [cbn; intros E; first [reflexivity|discriminate E|lia]|]); lia|]); lia. Qed.
Lemma ends_apart n i j : 2 <= n -> n * i = n - 1 + n * j -> False.
Proof. intros H E. destruct (Nat.le_gt_cases i j) as [Q|Q]. - assert (n * i <= n * j) by (apply Nat.mul_le_mono_l; exact Q). lia. - assert (n * S j <= n * i) by (apply Nat.mul_le_mono_l; lia). lia. Qed.
Lemma ends_apart1 n m i j : 2 <= m -> i < n -> i = j + n * (m - 1) -> False.
Proof. intros H I E. assert (n * 1 <= n * (m - 1)) by (apply Nat.mul_le_mono_l; lia). lia. Qed.
Theorem faces_disjoint k t px py f g l l' r : 1 <= px -> 1 <= py -> ReversalModel.face_dofs k t px py f = Some l -> ReversalModel.face_dofs k t px py g = Some l' ->
  In r l -> In r l' -> f = g.
Proof.
  intros Hx Hy F G I J. apply face_slice in F as (Hf & Af & Ht & F). apply face_slice in G as (Hg & Ag & _ & G).
  destruct (Nat.eq_dec f g) as [|NE]; [assumption|exfalso].
  assert (PE : place_of t f <> place_of t g) by (intros E; apply NE, (place_inj t); auto).
  assert (AB : tri t = true -> fst (place_of t f) = 0 -> fst (place_of t g) = 0 -> snd (place_of t f) = snd (place_of t g)).
  { unfold place_of. intros -> A B. cbn in *. rewrite (proj2 (tri_bounds f) A), (proj2 (tri_bounds g) B). reflexivity. }
  apply (slice2 _ _ _ _ _ _ _ Af F) in I. apply (slice2 _ _ _ _ _ _ _ Ag G) in J. clear F G.
  destruct (place_of t f) as [af sf], (place_of t g) as [ag sg]. cbn [fst snd] in *.
  destruct af as [|[|af]]; [| |lia]; destruct ag as [|[|ag]]; try lia; destruct I as (i & I1 & I2 & I3), J as (j & J1 & J2 & J3).
  - assert (SS : sf <> sg) by congruence. unfold array_of in *. destruct (tri t); [exfalso; apply SS; auto|].
    destruct k, sf, sg; try congruence; cbn [fst snd] in *; first [exact (ends_apart (px + 1) i j ltac:(lia) ltac:(lia))|exact (ends_apart (px + 1) j i ltac:(lia) ltac:(lia))].
  - unfold array_of in *. destruct k, (tri t); cbn [fst snd] in *; destruct sf, sg; nia.
  - unfold array_of in *. destruct k, (tri t); cbn [fst snd] in *; destruct sf, sg; nia.
  - assert (SS : sf <> sg) by congruence. unfold array_of in *.
    destruct k, sf, sg; try congruence; cbn [fst snd] in *; first [exact (ends_apart1 px (py + 1) i j ltac:(lia) ltac:(lia) ltac:(lia))|exact (ends_apart1 px (py + 1) j i ltac:(lia) ltac:(lia) ltac:(lia))].
Qed.

(** * the reversed arrays *)
Local Open Scope R_scope.
Lemma inb_in x l : existsb (Nat.eqb x) l = true <-> In x l.
Proof. rewrite existsb_exists. split; [intros (y & H & E); apply Nat.eqb_eq in E; now subst|intros H; exists x; split; [exact H|apply Nat.eqb_refl]]. Qed.
Lemma inb_map n0 i l : (n0 <= i)%nat -> existsb (Nat.eqb (i - n0)) l = existsb (Nat.eqb i) (map (fun r => (n0 + r)%nat) l).
Proof. intros H. induction l as [|x l IH]; cbn; [reflexivity|]. rewrite IH. f_equal. destruct (Nat.eqb_spec (i - n0) x), (Nat.eqb_spec i (n0 + x)); try reflexivity; lia. Qed.
Lemma inb_map_low n0 i l : (i < n0)%nat -> existsb (Nat.eqb i) (map (fun r => (n0 + r)%nat) l) = false.
Proof. intros H. induction l as [|x l IH]; cbn; [reflexivity|]. rewrite IH. destruct (Nat.eqb_spec i (n0 + x)); [lia|reflexivity]. Qed.
Lemma inb_high n0 i l : (n0 <= i)%nat -> (forall r, In r l -> (r < n0)%nat) -> existsb (Nat.eqb i) l = false.
Proof. intros H B. destruct (existsb (Nat.eqb i) l) eqn:E; [|reflexivity]. apply inb_in in E. specialize (B _ E). lia. Qed.

Lemma join_step n0 (lc l : list nat) (comp : nat) (orig c : (nat -> R) * (nat -> R)) :
  ((comp = 0%nat /\ l = lc /\ forall r, In r lc -> (r < n0)%nat) \/ (comp = 1%nat /\ l = map (fun r => (n0 + r)%nat) lc)) ->
  forall i, join n0 (match comp with O => (copy_negated lc (fst orig) (fst c), snd c) | _ => (fst c, copy_negated lc (snd orig) (snd c)) end) i
            = if existsb (Nat.eqb i) l then - join n0 orig i else join n0 c i.
Proof.
  intros [(-> & -> & B)|(-> & ->)] i; unfold join, copy_negated; cbn [fst snd]; destruct (Nat.ltb_spec i n0) as [H|H].
  - reflexivity.
  - now rewrite (inb_high n0) by auto.
  - now rewrite inb_map_low.
  - now rewrite <- inb_map by exact H.
Qed.
Lemma reverse_basis_joined k t px py fs : (1 <= px)%nat -> (1 <= py)%nat -> t <> CurvedTriangle -> (forall f, In f fs -> (f < faces_number t)%nat) ->
  exists ls, Forall2 (fun f l => ReversalModel.face_dofs k t px py f = Some l) fs ls /\ forall orig c, exists c', reverse_basis k t px py fs orig c = Some c' /\
    forall i, join (first_size k t px py) c' i = if reversed ls i then - join (first_size k t px py) orig i else join (first_size k t px py) c i.
Proof.
  intros Hx Hy Ht. induction fs as [|f r IH]; intros B.
  - exists []. split; [constructor|]. intros orig c. exists c. split; [reflexivity|]. intros i. reflexivity.
  - destruct IH as (ls & FA & IH); [intros; apply B; cbn; auto|]. destruct (cw_of k t px py f Hx Hy Ht) as (l & lc & comp & E & F & W); [apply B; cbn; auto|].
    exists (l :: ls). split; [constructor; auto|]. intros orig c.
    destruct (IH orig (match comp with O => (copy_negated lc (fst orig) (fst c), snd c) | _ => (fst c, copy_negated lc (snd orig) (snd c)) end)) as (c' & R' & J).
    exists c'. split.
    + cbn. rewrite F. destruct W as [(-> & _)|(-> & _)]; exact R'.
    + intros i. rewrite J, (join_step (first_size k t px py) lc l comp orig c W). cbn [reversed existsb]. fold (reversed ls i). unfold inb.
      destruct (existsb (Nat.eqb i) l), (reversed ls i); reflexivity.
Qed.
(** base.py: the basis functions *)
Theorem basis_reversed k t px py fs b : (1 <= px)%nat -> (1 <= py)%nat -> t <> CurvedTriangle -> (forall f, In f fs -> (f < faces_number t)%nat) ->
  exists ls b', Forall2 (fun f l => ReversalModel.face_dofs k t px py f = Some l) fs ls /\ reverse_basis k t px py fs b b = Some b' /\
    forall i, join (first_size k t px py) b' i = sign_of ls i * join (first_size k t px py) b i.
Proof.
  intros Hx Hy Ht B. destruct (reverse_basis_joined k t px py fs Hx Hy Ht B) as (ls & FA & H). destruct (H b b) as (b' & R' & J). exists ls, b'. split; [exact FA|]. split; [exact R'|].
  intros i. rewrite J. unfold sign_of. destruct (reversed ls i); ring.
Qed.
(** Rd_m2n2k1.py: the cochains, which are changed in place *)
Lemma negate_copy dofs c : negate_at dofs c = copy_negated dofs c c.
Proof. reflexivity. Qed.
Theorem cochain_reversed k t px py fs c : (1 <= px)%nat -> (1 <= py)%nat -> t <> CurvedTriangle -> (forall f, In f fs -> (f < faces_number t)%nat) -> NoDup fs ->
  exists ls c', Forall2 (fun f l => ReversalModel.face_dofs k t px py f = Some l) fs ls /\ reverse_cochain k t px py fs c = Some c' /\
    forall i, join (first_size k t px py) c' i = sign_of ls i * join (first_size k t px py) c i.
Proof.
  intros Hx Hy Ht B ND. revert c. induction fs as [|f r IH]; intros c.
  - exists [], c. split; [constructor|]. split; [reflexivity|]. intros i. unfold sign_of. cbn. ring.
  - inversion ND as [|? ? N1 N2]; subst. destruct (cw_of k t px py f Hx Hy Ht) as (l & lc & comp & E & F & W); [apply B; cbn; auto|].
    destruct (IH (fun g Hg => B g (or_intror Hg)) N2 (match comp with O => (copy_negated lc (fst c) (fst c), snd c) | _ => (fst c, copy_negated lc (snd c) (snd c)) end)) as (ls & c' & FA & R' & J).
    exists (l :: ls), c'. split; [constructor; auto|]. split.
    + cbn. rewrite F. destruct W as [(-> & _)|(-> & _)]; exact R'.
    + intros i. rewrite J, (join_step (first_size k t px py) lc l comp c c W). unfold sign_of. cbn [reversed existsb]. fold (reversed ls i). unfold inb.
      destruct (existsb (Nat.eqb i) l) eqn:I1; cbn; [|reflexivity]. destruct (reversed ls i) eqn:I2; [exfalso|ring].
      apply inb_in in I1. unfold reversed in I2. apply existsb_exists in I2 as (l' & L1 & L2). apply inb_in in L2.
      clear - FA L1 L2 I1 N1 E Hx Hy. induction FA as [|g l'' r ls' G FA IH]; [destruct L1|]. destruct L1 as [->|L1].
      * apply N1. left. symmetry. exact (faces_disjoint k t px py f g l l' i Hx Hy E G I1 L2).
      * apply IH; auto. intros Q. apply N1. now right.
Qed.

(** * everything made of them is unchanged *)
Lemma sign_square ls i : sign_of ls i * sign_of ls i = 1.
Proof. unfold sign_of. destruct (reversed ls i); ring. Qed.
Lemma same_dofs k t px py fs ls ls' : Forall2 (fun f l => ReversalModel.face_dofs k t px py f = Some l) fs ls -> Forall2 (fun f l => ReversalModel.face_dofs k t px py f = Some l) fs ls' -> ls = ls'.
Proof. intros H. revert ls'. induction H; intros ls' H'; inversion H'; subst; [reflexivity|]. f_equal; [congruence|auto]. Qed.

(** the values of the form *)
Section One.
Variables (k : form) (t : etype) (px py : nat) (fs : list nat).
Hypotheses (Hx : (1 <= px)%nat) (Hy : (1 <= py)%nat) (Ht : t <> CurvedTriangle) (B : forall f, In f fs -> (f < faces_number t)%nat) (ND : NoDup fs).
Notation n0 := (first_size k t px py).
Lemma common_signs : exists ls, Forall2 (fun f l => ReversalModel.face_dofs k t px py f = Some l) fs ls /\
  (forall c c', reverse_cochain k t px py fs c = Some c' -> forall i, join n0 c' i = sign_of ls i * join n0 c i) /\
  (forall b b', reverse_basis k t px py fs b b = Some b' -> forall i, join n0 b' i = sign_of ls i * join n0 b i).
Proof.
  destruct (reverse_basis_joined k t px py fs Hx Hy Ht B) as (ls & FA & H). exists ls. split; [exact FA|]. split.
  - intros c c' E. destruct (cochain_reversed k t px py fs c Hx Hy Ht B ND) as (ls' & c'' & F' & E' & J). rewrite E in E'. injection E' as <-.
    now rewrite (same_dofs _ _ _ _ _ _ _ FA F').
  - intros b b' E. destruct (basis_reversed k t px py fs b Hx Hy Ht B) as (ls' & c'' & F' & E' & J). rewrite E in E'. injection E' as <-.
    now rewrite (same_dofs _ _ _ _ _ _ _ FA F').
Qed.
Theorem values_unchanged nd second c b c' b' : reverse_cochain k t px py fs c = Some c' -> reverse_basis k t px py fs b b = Some b' ->
  component n0 nd second b' c' = component n0 nd second b c.
Proof.
  intros HC HB. destruct common_signs as (ls & _ & J1 & J2). unfold component. rewrite !np_sum_total. apply total_ext. intros i _. destruct (Bool.eqb _ _); [|reflexivity].
  rewrite (J1 _ _ HC), (J2 _ _ HB). pose proof (sign_square ls i) as Q. set (s := sign_of ls i) in *.
  replace (s * join n0 c i * (s * join n0 b i)) with ((s * s) * (join n0 c i * join n0 b i)) by ring. rewrite Q. ring.
Qed.
Theorem mass_signs : exists ls, Forall2 (fun f l => ReversalModel.face_dofs k t px py f = Some l) fs ls /\
  forall Q w b b', (forall q, reverse_basis k t px py fs (b q) (b q) = Some (b' q)) -> forall i j,
  mass_entry n0 Q w b' i j = sign_of ls i * sign_of ls j * mass_entry n0 Q w b i j.
Proof.
  destruct common_signs as (ls & FA & _ & J). exists ls. split; [exact FA|]. intros Q w b b' H i j. unfold mass_entry. rewrite !np_sum_total, <- total_scal. apply total_ext. intros q _.
  rewrite !(J _ _ (H q)). ring.
Qed.
Theorem inner_product_unchanged nd Q w b b' c c' d d' : (forall q, reverse_basis k t px py fs (b q) (b q) = Some (b' q)) ->
  reverse_cochain k t px py fs c = Some c' -> reverse_cochain k t px py fs d = Some d' ->
  total nd (fun i => total nd (fun j => join n0 c' i * mass_entry n0 Q w b' i j * join n0 d' j)) = total nd (fun i => total nd (fun j => join n0 c i * mass_entry n0 Q w b i j * join n0 d j)).
Proof.
  intros HB HC HD. destruct common_signs as (ls & FA & J1 & _). destruct mass_signs as (ls' & FA' & M). rewrite <- (same_dofs _ _ _ _ _ _ _ FA FA') in M.
  apply total_ext. intros i _. apply total_ext. intros j _. rewrite (J1 _ _ HC), (J1 _ _ HD), (M Q w b b' HB). pose proof (sign_square ls i) as Q1. pose proof (sign_square ls j) as Q2.
  set (s := sign_of ls i) in *. set (r := sign_of ls j) in *. set (X := join n0 c i). set (Y := join n0 d j). set (Z := mass_entry n0 Q w b i j).
  transitivity ((s * s) * (r * r) * (X * Z * Y)); [ring|]. rewrite Q1, Q2. ring.
Qed.
(** IM_m2n2k1.py: the incidence matrix with reversed columns *)
Theorem derivative_unchanged ls : Forall2 (fun f l => ReversalModel.face_dofs k t px py f = Some l) fs ls -> forall nd E c c' r,
  reverse_cochain k t px py fs c = Some c' ->
  total nd (fun j => IZR (reverse_cols ls E r j) * join n0 c' j) = total nd (fun j => IZR (E r j) * join n0 c j).
Proof.
  intros F nd E c c' r HC. destruct common_signs as (ls' & FA & J1 & _). rewrite <- (same_dofs _ _ _ _ _ _ _ F FA) in J1. apply total_ext. intros j _.
  rewrite (J1 _ _ HC), reverse_cols_val, mult_IZR. unfold sign_of. destruct (reversed ls j); lra.
Qed.
(** IM_m2n2k0.py: the incidence matrix with reversed rows gives the reversed cochain *)
Theorem gradient_reversed ls : Forall2 (fun f l => ReversalModel.face_dofs k t px py f = Some l) fs ls -> forall nd E u c c',
  (forall i, join n0 c i = total nd (fun j => IZR (E i j) * u j)) -> reverse_cochain k t px py fs c = Some c' ->
  forall i, join n0 c' i = total nd (fun j => IZR (reverse_rows ls E i j) * u j).
Proof.
  intros F nd E u c c' H HC i. destruct common_signs as (ls' & FA & J1 & _). rewrite <- (same_dofs _ _ _ _ _ _ _ F FA) in J1.
  rewrite (J1 _ _ HC), H, <- total_scal. apply total_ext. intros j _. rewrite reverse_rows_val, mult_IZR. unfold sign_of. destruct (reversed ls i); lra.
Qed.
End One.
