From Coq Require Import List Arith Reals Lra Lia.
From Coquelicot Require Import Coquelicot.
From Verif Require Import MappingModel MappingSpec JacobianSpec JacobianModel JacobianProofs PolyModel PolySpec PolyProofs PolyCalc NdArray LocalNumberingModel IncidenceThms TensorModel TensorSpec TensorThms ReduceModel ReduceSpec.
Import ListNotations.
Local Open Scope R_scope.
Local Notation i0 := 0%nat.
Local Notation i1 := 1%nat.
Local Notation i2 := 2%nat.

(** * arrays *)
Lemma divmod a b n : (a < n)%nat -> ((a + n * b) / n = b /\ (a + n * b) mod n = a)%nat.
Proof.
  intros H. replace (a + n * b)%nat with (a + b * n)%nat by lia. split.
  - rewrite Nat.div_add, Nat.div_small by lia. lia.
  - rewrite Nat.mod_add, Nat.mod_small by lia. lia.
Qed.
Lemma tile_len l n : length (tile l n) = (length l * n)%nat.
Proof. unfold tile. induction n; cbn; [lia |]. rewrite app_length, IHn. lia. Qed.
Lemma tile_nth l n a b : (a < length l)%nat -> (b < n)%nat -> nth (a + length l * b) (tile l n) 0 = nth a l 0.
Proof.
  unfold tile. revert b. induction n as [| n IH]; intros b Ha Hb; [lia |]. cbn. destruct b as [| b].
  - rewrite app_nth1 by lia. f_equal. lia.
  - rewrite app_nth2 by lia. replace (a + length l * S b - length l)%nat with (a + length l * b)%nat by lia. apply IH; lia.
Qed.
Lemma nth_repeat_lt {A} (x d : A) n i : (i < n)%nat -> nth i (repeat x n) d = x.
Proof. revert i. induction n; intros [| i] H; try lia; cbn; auto. apply IHn. lia. Qed.
Lemma rep_len l n : length (rep l n) = (n * length l)%nat.
Proof. unfold rep. induction l; cbn; [lia |]. rewrite app_length, repeat_length, IHl. lia. Qed.
Lemma rep_nth l n a b : (a < n)%nat -> (b < length l)%nat -> nth (a + n * b) (rep l n) 0 = nth b l 0.
Proof.
  unfold rep. revert b. induction l as [| x l IH]; intros b Ha Hb; [cbn in Hb; lia |]. cbn. destruct b as [| b].
  - rewrite app_nth1 by (rewrite repeat_length; lia). apply nth_repeat_lt. lia.
  - rewrite app_nth2 by (rewrite repeat_length; lia). rewrite repeat_length. replace (a + n * S b - n)%nat with (a + n * b)%nat by lia.
    apply IH; [lia |]. cbn in Hb. lia.
Qed.
Lemma diffs_len l : length (diffs l) = degree l. Proof. unfold diffs. now rewrite map_length, seq_length. Qed.
Lemma nth_map_seq (f : nat -> R) n i : (i < n)%nat -> nth i (map f (seq 0 n)) 0 = f i.
Proof. intros H. rewrite (nth_indep _ 0 (f 0%nat)) by (rewrite map_length, seq_length; exact H). rewrite map_nth, seq_nth by exact H. reflexivity. Qed.
Lemma diffs_nth l i : (i < degree l)%nat -> nth i (diffs l) 0 = node l (S i) - node l i.
Proof. intros H. unfold diffs. now rewrite nth_map_seq. Qed.
Lemma removelast_nth l i : (i < degree l)%nat -> nth i (removelast l) 0 = node l i.
Proof.
  unfold degree, node. revert i. induction l as [| x l IH]; intros i H; [cbn in H; lia |]. cbn [removelast]. destruct l as [| y l]; [cbn in H; lia |].
  destruct i; [reflexivity |]. cbn [nth]. apply IH. cbn in *. lia.
Qed.
Lemma removelast_len (l : list R) : length (removelast l) = degree l.
Proof. unfold degree. induction l as [| x l IH]; [reflexivity |]. cbn [removelast]. destruct l; [reflexivity |]. cbn [length] in *. rewrite IH. lia. Qed.
(** blocks of the same length *)
Lemma flat_map_seq_len {A} (f : nat -> list A) n q s : (forall i, length (f i) = q) -> length (flat_map f (seq s n)) = (q * n)%nat.
Proof. intros H. revert s. induction n; intros s; cbn; [lia |]. rewrite app_length, H, IHn. lia. Qed.
Lemma flat_map_nth {A} (f : nat -> list A) n q a b s d : (forall i, length (f i) = q) -> (a < q)%nat -> (b < n)%nat ->
  nth (a + q * b) (flat_map f (seq s n)) d = nth a (f (s + b)%nat) d.
Proof.
  intros H Ha. revert b s. induction n as [| n IH]; intros b s Hb; [lia |]. cbn [seq flat_map]. destruct b as [| b].
  - rewrite app_nth1 by (rewrite H; lia). do 2 f_equal; lia.
  - rewrite app_nth2 by (rewrite H; lia). rewrite H. replace (a + q * S b - q)%nat with (a + q * b)%nat by lia. rewrite IH by lia.
    do 2 f_equal. lia.
Qed.
Lemma cell_nodes_len xs qn : length (cell_nodes xs qn) = (length qn * degree xs)%nat.
Proof. unfold cell_nodes. apply flat_map_seq_len. intros. apply map_length. Qed.
Lemma cell_nodes_nth xs qn r i : (r < length qn)%nat -> (i < degree xs)%nat ->
  nth (r + length qn * i) (cell_nodes xs qn) 0 = node xs i + (node xs (S i) - node xs i) / 2 * (nth r qn 0 + 1).
Proof.
  intros Hr Hi. unfold cell_nodes. rewrite (flat_map_nth _ (length xs - 1) (length qn)); [| intros; apply map_length | exact Hr | exact Hi].
  cbn [Nat.add]. rewrite diffs_nth by exact Hi.
  rewrite (nth_indep _ 0 ((fun q => 1/2 * (node xs (S i) - node xs i) * (q + 1) + nth i xs 0) 0)) by (rewrite map_length; exact Hr).
  rewrite (map_nth (fun q => 1/2 * (node xs (S i) - node xs i) * (q + 1) + nth i xs 0)). unfold node. field.
Qed.
Lemma edges_nth v w es j : (j < length es)%nat ->
  nth j (einsum_edges v w es) 0 = nth j es 0 / 2 * total (length w) (fun r => nth r w 0 * v r j).
Proof.
  intros H. unfold einsum_edges. rewrite nth_map_seq by exact H. rewrite np_sum_total, <- total_scal. apply total_ext. intros. field.
Qed.
Lemma edges_len v w es : length (einsum_edges v w es) = length es.
Proof. unfold einsum_edges. now rewrite map_length, seq_length. Qed.

(** * rules *)
Lemma rule_sum_ext qn qw a b f g : length qn = length qw -> List.Forall (fun x => -1 <= x <= 1) qn -> a <= b ->
  (forall t, a <= t <= b -> f t = g t) -> rule_sum qn qw a b f = rule_sum qn qw a b g.
Proof.
  intros L Q ab H. unfold rule_sum. f_equal. apply total_ext. intros r Hr. f_equal. apply H.
  assert (X : -1 <= nth r qn 0 <= 1) by (apply (proj1 (List.Forall_nth (fun x => -1 <= x <= 1) qn) Q r 0); lia). nra.
Qed.
Lemma rule_sum_ext_all qn qw a b f g : (forall t, f t = g t) -> rule_sum qn qw a b f = rule_sum qn qw a b g.
Proof. intros H. unfold rule_sum. f_equal. apply total_ext. intros r Hr. f_equal. apply H. Qed.
Lemma ps_affine n f a b : poly_of_size n f -> poly_of_size n (fun x => f (a + b * x)).
Proof.
  intros [c [Hc E]]. apply (ps_ext n (fun x => poly c (a + b * x))); [intros; now rewrite E |].
  apply (ps_mono (length c)); [exact Hc |]. clear Hc E f n. induction c as [| e c IH]; [apply ps_0 |]. cbn [poly length].
  apply ps_plus; [apply ps_const; lia |].
  destruct (Req_EM_T b 0) as [-> | Nb].
  - apply (ps_ext _ (fun _ => a * poly c a)); [intros; f_equal; [| f_equal]; ring | apply ps_const; lia].
  - apply (ps_ext _ (fun x => poly c (a + b * x) * ((x - (- a / b)) / (1 / b)))).
    + intros x. field. exact Nb.
    + now apply ps_linear.
Qed.
Lemma poly_rule d qn qw c : exact_rule d qn qw -> (length c <= d)%nat ->
  is_RInt (poly c) (-1) 1 (total (length qw) (fun r => nth r qw 0 * poly c (nth r qn 0))).
Proof.
  intros H L.
  assert (G : forall k, (k + length c <= d)%nat -> is_RInt (fun x => x ^ k * poly c x) (-1) 1 (total (length qw) (fun r => nth r qw 0 * (nth r qn 0 ^ k * poly c (nth r qn 0))))).
  { clear L. induction c as [| a c IH]; intros k Hk.
    - apply (is_RInt_ext (fun _ => 0)); [intros; cbn; ring |]. replace (total _ _) with (scal (1 - -1) 0); [apply (@is_RInt_const R_NormedModule) |].
      unfold scal; cbn; unfold mult; cbn. rewrite total_0; [ring |]. intros; ring.
    - apply (is_RInt_ext (fun x => plus (scal a (x ^ k)) (x ^ S k * poly c x))).
      { intros. unfold plus, scal; cbn; unfold mult; cbn. ring. }
      replace (total _ _) with (plus (scal a (total (length qw) (fun r => nth r qw 0 * nth r qn 0 ^ k))) (total (length qw) (fun r => nth r qw 0 * (nth r qn 0 ^ S k * poly c (nth r qn 0))))).
      + apply (@is_RInt_plus R_NormedModule); [apply (@is_RInt_scal R_NormedModule), H; cbn in Hk; lia | apply IH; cbn in Hk; lia].
      + unfold plus, scal; cbn; unfold mult; cbn. rewrite <- total_scal, <- total_plus. apply total_ext. intros. ring. }
  specialize (G 0%nat L). eapply is_RInt_ext; [| erewrite total_ext; [exact G |]]; intros; cbn; ring.
Qed.
Lemma rule_exact d qn qw f a b : exact_rule d qn qw -> poly_of_size d f -> is_RInt f a b (rule_sum qn qw a b f).
Proof.
  intros H P. destruct (Req_EM_T a b) as [<- | N].
  - unfold rule_sum. replace ((a - a) / 2 * _) with (@zero R_NormedModule); [apply (@is_RInt_point R_NormedModule) |]. unfold zero; cbn. field.
  - destruct (ps_affine d f (a + (b - a) / 2) ((b - a) / 2) P) as [c [Lc Ec]].
    assert (G := poly_rule d qn qw c H Lc).
    assert (K := @is_RInt_comp_lin R_NormedModule (fun x => scal (2 / (b - a)) (f x)) ((b - a) / 2) (a + (b - a) / 2) (-1) 1).
    assert (E1 : is_RInt (fun y => f (a + (b - a) / 2 + (b - a) / 2 * y)) (-1) 1 (total (length qw) (fun r => nth r qw 0 * poly c (nth r qn 0)))).
    { eapply is_RInt_ext; [| exact G]. intros; cbn beta. now rewrite Ec. }
    assert (Nb : b - a <> 0) by (intros E; apply N; lra).
    assert (I2 : is_RInt (fun t => scal (2 / (b - a)) (f (a + (b - a) / 2 + (b - a) / 2 * (2 / (b - a) * t + - (2 * a / (b - a) + 1))))) a b
                   (total (length qw) (fun r => nth r qw 0 * poly c (nth r qn 0)))).
    { apply (@is_RInt_comp_lin R_NormedModule (fun y => f (a + (b - a) / 2 + (b - a) / 2 * y)) (2 / (b - a)) (- (2 * a / (b - a) + 1)) a b).
      replace (2 / (b - a) * a + - (2 * a / (b - a) + 1)) with (-1) by (field; exact Nb).
      replace (2 / (b - a) * b + - (2 * a / (b - a) + 1)) with 1 by (field; exact Nb). exact E1. }
    apply (@is_RInt_scal R_NormedModule _ _ _ ((b - a) / 2)) in I2.
    replace (rule_sum qn qw a b f) with (scal ((b - a) / 2) (total (length qw) (fun r => nth r qw 0 * poly c (nth r qn 0)))).
    + eapply is_RInt_ext; [| exact I2]. intros x _. unfold scal; cbn; unfold mult; cbn.
      replace (a + (b - a) / 2 + (b - a) / 2 * (2 / (b - a) * x + - (2 * a / (b - a) + 1))) with x by (field; exact Nb). field. exact Nb.
    + unfold rule_sum, scal; cbn; unfold mult; cbn. f_equal. apply total_ext. intros r _. f_equal. rewrite <- Ec. f_equal. ring.
Qed.

(** * reduction of a function of the reference coordinates along edges *)
Definition reduce2 (p : prep2) (g : R -> R -> R) (w : list R) : list R :=
  let '(xi, et, es) := p in einsum_edges (fun r c => g (xi r c) (et r c)) w es.
Definition reduce3 (p : prep3) (g : R -> R -> R -> R) (w : list R) : list R :=
  let '(xi, et, sg, es) := p in einsum_edges (fun r c => g (xi r c) (et r c) (sg r c)) w es.
Lemma deg_len s : nodes_ok s -> length s = (degree s + 1)%nat /\ (1 <= degree s)%nat. Proof. intros [_ H]. unfold degree. lia. Qed.
Lemma grid_lt i j n m : (i < n)%nat -> (j < m)%nat -> (i + n * j < n * m)%nat. Proof. intros. nia. Qed.
Lemma edge_sum_eq (qn w : list R) (a b : R) (f g : nat -> R) h : length qn = length w ->
  (forall r, (r < length qn)%nat -> f r = h (a + (b - a) / 2 * (nth r qn 0 + 1))) -> g 0%nat = b - a ->
  g 0%nat / 2 * total (length w) (fun r => nth r w 0 * f r) = rule_sum qn w a b h.
Proof. intros L H ->. unfold rule_sum. f_equal. apply total_ext. intros r Hr. f_equal. apply H. lia. Qed.
Section R2.
Variables (sx sy qn w : list R).
Hypotheses (Hx : nodes_ok sx) (Hy : nodes_ok sy) (Hq : length qn = length w).
Notation px := (degree sx). Notation py := (degree sy).
Lemma prep2_x_len : length (snd (prep2_x sx sy qn)) = (px * (py + 1))%nat.
Proof. cbn. rewrite tile_len, diffs_len. reflexivity. Qed.
Lemma prep2_y_len : length (snd (prep2_y sx sy qn)) = ((px + 1) * py)%nat.
Proof. cbn. rewrite rep_len, diffs_len. reflexivity. Qed.
Lemma reduce2_x g i j : (i < px)%nat -> (j < py + 1)%nat ->
  nth (i + px * j) (reduce2 (prep2_x sx sy qn) g w) 0 = rule_sum qn w (node sx i) (node sx (S i)) (fun t => g t (node sy j)).
Proof.
  intros Hi Hj. destruct (deg_len sx Hx) as [Lx Px]. destruct (deg_len sy Hy) as [Ly Py]. cbn [reduce2 prep2_x].
  rewrite edges_nth by (rewrite tile_len, diffs_len; now apply grid_lt).
  assert (E := tile_nth (diffs sx) (py + 1) i j). rewrite diffs_len in E. specialize (E Hi Hj). rewrite E, diffs_nth by exact Hi.
  apply (edge_sum_eq qn w _ _ _ (fun _ => _)); [exact Hq | | reflexivity]. intros r Hr. f_equal.
  - assert (T := tile_nth (cell_nodes sx qn) (py + 1) (r + length qn * i) j). rewrite cell_nodes_len in T.
    replace (r + length qn * (i + px * j))%nat with (r + length qn * i + length qn * px * j)%nat by ring.
    rewrite T; [| now apply grid_lt | exact Hj]. now apply cell_nodes_nth.
  - apply rep_nth; lia.
Qed.
Lemma reduce2_y g i j : (i < px + 1)%nat -> (j < py)%nat ->
  nth (i + (px + 1) * j) (reduce2 (prep2_y sx sy qn) g w) 0 = rule_sum qn w (node sy j) (node sy (S j)) (fun t => g (node sx i) t).
Proof.
  intros Hi Hj. destruct (deg_len sx Hx) as [Lx Px]. destruct (deg_len sy Hy) as [Ly Py]. cbn [reduce2 prep2_y].
  rewrite edges_nth by (rewrite rep_len, diffs_len; now apply grid_lt).
  rewrite rep_nth by (rewrite ?diffs_len; assumption). rewrite diffs_nth by exact Hj.
  apply (edge_sum_eq qn w _ _ _ (fun _ => _)); [exact Hq | | reflexivity]. intros r Hr. f_equal.
  - assert (T := tile_nth sx py i j). rewrite Lx in T. apply T; assumption.
  - destruct (divmod i j (px + 1) Hi) as [-> _]. now apply cell_nodes_nth.
Qed.
End R2.
Section R3.
Variables (sx sy sz qn w : list R).
Hypotheses (Hx : nodes_ok sx) (Hy : nodes_ok sy) (Hz : nodes_ok sz) (Hq : length qn = length w).
Notation px := (degree sx). Notation py := (degree sy). Notation pz := (degree sz).
Lemma prep3_x_len : length (snd (prep3_x sx sy sz qn)) = (px * (py + 1) * (pz + 1))%nat.
Proof. cbn. rewrite tile_len, diffs_len. ring. Qed.
Lemma prep3_y_len : length (snd (prep3_y sx sy sz qn)) = ((px + 1) * py * (pz + 1))%nat.
Proof. cbn. rewrite tile_len, rep_len, diffs_len. ring. Qed.
Lemma prep3_z_len : length (snd (prep3_z sx sy sz qn)) = ((px + 1) * (py + 1) * pz)%nat.
Proof. cbn. rewrite !rep_len, diffs_len. ring. Qed.
Lemma lt3 i j k a b c : (i < a)%nat -> (j < b)%nat -> (k < c)%nat -> (i + a * (j + b * k) < a * b * c)%nat.
Proof. intros. pose proof (grid_lt j k b c). rewrite <- Nat.mul_assoc. apply grid_lt; auto. Qed.
Lemma half r s t : (nth r qn 0 + 1) * (t - s) / 2 + s = s + (t - s) / 2 * (nth r qn 0 + 1). Proof. field. Qed.
Lemma reduce3_x g i j k : (i < px)%nat -> (j < py + 1)%nat -> (k < pz + 1)%nat ->
  nth (i + px * (j + (py + 1) * k)) (reduce3 (prep3_x sx sy sz qn) g w) 0 = rule_sum qn w (node sx i) (node sx (S i)) (fun t => g t (node sy j) (node sz k)).
Proof.
  intros Hi Hj Hk. destruct (deg_len sx Hx) as [Lx Px]. destruct (deg_len sy Hy) as [Ly Py]. destruct (deg_len sz Hz) as [Lz Pz]. cbn [reduce3 prep3_x].
  assert (Hjk : (j + (py + 1) * k < (py + 1) * (pz + 1))%nat) by now apply grid_lt.
  assert (E := tile_nth (diffs sx) ((py + 1) * (pz + 1)) i (j + (py + 1) * k)). rewrite diffs_len in E. specialize (E Hi Hjk).
  rewrite edges_nth by (rewrite tile_len, diffs_len; now apply grid_lt). rewrite E, diffs_nth by exact Hi.
  apply (edge_sum_eq qn w _ _ _ (fun _ => _)); [exact Hq | | reflexivity]. intros r Hr. f_equal; [| | ].
  - assert (T := tile_nth (removelast sx) ((py + 1) * (pz + 1)) i (j + (py + 1) * k)). rewrite removelast_len in T. rewrite T by assumption.
    rewrite removelast_nth by exact Hi. apply half.
  - replace (i + px * (j + (py + 1) * k))%nat with ((i + px * j) + (px * (py + 1)) * k)%nat by ring.
    destruct (divmod (i + px * j) k (px * (py + 1))) as [_ ->]; [now apply grid_lt |].
    replace (r + length qn * (i + px * j))%nat with ((r + length qn * i) + (px * length qn) * j)%nat by ring.
    apply rep_nth; [nia | lia].
  - replace (i + px * (j + (py + 1) * k))%nat with ((i + px * j) + (px * (py + 1)) * k)%nat by ring. apply rep_nth; [now apply grid_lt | lia].
Qed.
Lemma reduce3_y g i j k : (i < px + 1)%nat -> (j < py)%nat -> (k < pz + 1)%nat ->
  nth (i + (px + 1) * (j + py * k)) (reduce3 (prep3_y sx sy sz qn) g w) 0 = rule_sum qn w (node sy j) (node sy (S j)) (fun t => g (node sx i) t (node sz k)).
Proof.
  intros Hi Hj Hk. destruct (deg_len sx Hx) as [Lx Px]. destruct (deg_len sy Hy) as [Ly Py]. destruct (deg_len sz Hz) as [Lz Pz]. cbn [reduce3 prep3_y].
  assert (Hij : (i + (px + 1) * j < (px + 1) * py)%nat) by now apply grid_lt.
  assert (I : (i + (px + 1) * (j + py * k) = (i + (px + 1) * j) + (px + 1) * py * k)%nat) by ring.
  assert (E := tile_nth (rep (diffs sy) (px + 1)) (pz + 1) (i + (px + 1) * j) k). rewrite rep_len, diffs_len in E. specialize (E Hij Hk).
  rewrite edges_nth by (rewrite tile_len, rep_len, diffs_len; rewrite I; now apply grid_lt). rewrite I at 1. rewrite E.
  rewrite rep_nth by (rewrite ?diffs_len; assumption). rewrite diffs_nth by exact Hj.
  apply (edge_sum_eq qn w _ _ _ (fun _ => _)); [exact Hq | | reflexivity]. intros r Hr. f_equal; [| | ].
  - assert (T := tile_nth sx (py * (pz + 1)) i (j + py * k)). rewrite Lx in T. apply T; [assumption | now apply grid_lt].
  - assert (T := tile_nth (rep (removelast sy) (px + 1)) (pz + 1) (i + (px + 1) * j) k). rewrite rep_len, removelast_len in T.
    rewrite I, E, T by assumption. rewrite !rep_nth by (rewrite ?removelast_len, ?diffs_len; assumption). rewrite removelast_nth, diffs_nth by exact Hj. apply half.
  - replace (i + (px + 1) * (j + py * k))%nat with ((i + (px + 1) * j) + (py * (px + 1)) * k)%nat by ring. apply rep_nth; [nia | lia].
Qed.
Lemma reduce3_z g i j k : (i < px + 1)%nat -> (j < py + 1)%nat -> (k < pz)%nat ->
  nth (i + (px + 1) * (j + (py + 1) * k)) (reduce3 (prep3_z sx sy sz qn) g w) 0 = rule_sum qn w (node sz k) (node sz (S k)) (fun t => g (node sx i) (node sy j) t).
Proof.
  intros Hi Hj Hk. destruct (deg_len sx Hx) as [Lx Px]. destruct (deg_len sy Hy) as [Ly Py]. destruct (deg_len sz Hz) as [Lz Pz]. cbn [reduce3 prep3_z].
  assert (Hij : (i + (px + 1) * j < (px + 1) * (py + 1))%nat) by now apply grid_lt.
  (* np.repeat of np.repeat: the position within the block of one edge *)
  assert (E : nth (i + (px + 1) * (j + (py + 1) * k)) (rep (rep (diffs sz) (px + 1)) (py + 1)) 0 = node sz (S k) - node sz k).
  { set (m := (i + (px + 1) * j)%nat). assert (Hm : (m < (py + 1) * (px + 1))%nat) by (unfold m; nia).
    replace (i + (px + 1) * (j + (py + 1) * k))%nat with (m mod (py + 1) + (py + 1) * (m / (py + 1) + (px + 1) * k))%nat.
    2:{ unfold m. pose proof (Nat.div_mod (i + (px + 1) * j) (py + 1) ltac:(lia)). nia. }
    assert (Hd : (m / (py + 1) < px + 1)%nat) by (apply Nat.div_lt_upper_bound; lia).
    assert (M : (m mod (py + 1) < py + 1)%nat) by (apply Nat.mod_upper_bound; lia).
    rewrite rep_nth; [| exact M | rewrite rep_len, diffs_len; now apply grid_lt]. rewrite rep_nth by (rewrite ?diffs_len; assumption). now apply diffs_nth. }
  rewrite edges_nth by (rewrite !rep_len, diffs_len; nia). rewrite E.
  apply (edge_sum_eq qn w _ _ _ (fun _ => _)); [exact Hq | | reflexivity]. intros r Hr. f_equal; [| | ].
  - assert (T := tile_nth sx ((py + 1) * pz) i (j + (py + 1) * k)). rewrite Lx in T. apply T; [assumption | now apply grid_lt].
  - assert (T := tile_nth (rep sy (px + 1)) pz (i + (px + 1) * j) k). rewrite rep_len, Ly in T.
    replace (i + (px + 1) * (j + (py + 1) * k))%nat with ((i + (px + 1) * j) + ((px + 1) * (py + 1)) * k)%nat by ring. rewrite T by assumption.
    apply rep_nth; lia.
  - replace (i + (px + 1) * (j + (py + 1) * k))%nat with ((i + (px + 1) * j) + ((px + 1) * (py + 1)) * k)%nat by ring.
    rewrite rep_nth by (rewrite ?removelast_len; assumption). rewrite removelast_nth by exact Hk. apply half.
Qed.
End R3.
