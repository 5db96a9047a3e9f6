(** Proofs about the memory of the nodal polynomials. *)
From Coq Require Import List ZArith QArith Qcanon Bool String Reals Qreals Lia Lra.
From Verif Require Import Dict MetricKeyModel MemoModel MiscModel NdCacheModel NdCacheSpec NdCacheProofs PolyModel PolyCacheModel.
Import ListNotations.

(** ** the rational polynomials are the real ones *)
Definition q2r (q : Qc) : R := Q2R (this q).
Lemma q2r_add a b : q2r (a + b)%Qc = (q2r a + q2r b)%R.
Proof. unfold q2r, Qcplus, Q2Qc. cbn [this]. rewrite (Qeq_eqR _ _ (Qred_correct _)). apply Q2R_plus. Qed.
Lemma q2r_mul a b : q2r (a * b)%Qc = (q2r a * q2r b)%R.
Proof. unfold q2r, Qcmult, Q2Qc. cbn [this]. rewrite (Qeq_eqR _ _ (Qred_correct _)). apply Q2R_mult. Qed.
Lemma q2r_opp a : q2r (- a)%Qc = (- q2r a)%R.
Proof. unfold q2r, Qcopp, Q2Qc. cbn [this]. rewrite (Qeq_eqR _ _ (Qred_correct _)). apply Q2R_opp. Qed.
Lemma q2r_sub a b : q2r (a - b)%Qc = (q2r a - q2r b)%R.
Proof. unfold Qcminus. rewrite q2r_add, q2r_opp. reflexivity. Qed.
Lemma q2r_inv a : a <> 0%Qc -> q2r (/ a)%Qc = (/ q2r a)%R.
Proof.
  intros H. unfold q2r, Qcinv, Q2Qc. cbn [this]. rewrite (Qeq_eqR _ _ (Qred_correct _)). apply Q2R_inv.
  intros E. apply H. apply Qc_is_canon. exact E.
Qed.
Lemma q2r_0 : q2r 0%Qc = 0%R. Proof. unfold q2r, Q2R. cbn. lra. Qed.
Lemma q2r_1 : q2r 1%Qc = 1%R. Proof. unfold q2r, Q2R. cbn. lra. Qed.
Lemma q2r_inj a b : q2r a = q2r b -> a = b.
Proof. intros H. apply Qc_is_canon. apply eqR_Qeq. exact H. Qed.
Lemma q2r_lt a b : (a < b)%Qc <-> (q2r a < q2r b)%R.
Proof. unfold Qclt, q2r. split; [apply Qlt_Rlt|apply Rlt_Qlt]. Qed.
Lemma node_map ns i : node (map q2r ns) i = q2r (nth i ns 0%Qc).
Proof. unfold node. rewrite <- q2r_0. apply map_nth. Qed.
Lemma lagrange_q_real ns i x : NoDup ns -> (i < List.length ns)%nat ->
  q2r (lagrange_q ns i x) = lagrange (map q2r ns) i (q2r x).
Proof.
  intros Hn Hi. unfold lagrange_q, lagrange. rewrite map_length.
  assert (G : forall l a b, (forall j, In j l -> (j < List.length ns)%nat) -> q2r a = b ->
    q2r (fold_left (fun b j => if Nat.eqb i j then b else (b * ((x - nth j ns 0) / (nth i ns 0 - nth j ns 0)))%Qc) l a)
    = fold_left (fun b j => if Nat.eqb i j then b else (b * ((q2r x - node (map q2r ns) j) / (node (map q2r ns) i - node (map q2r ns) j)))%R) l b).
  { induction l as [|j l IH]; intros a b Hl E; cbn [fold_left]; [exact E|]. apply IH; [intros; apply Hl; right; assumption|].
    destruct (Nat.eqb_spec i j) as [->|Hij]; [exact E|]. unfold Qcdiv, Rdiv.
    rewrite q2r_mul, q2r_mul, q2r_inv, !q2r_sub, !node_map, E; [reflexivity|].
    intros Z. apply Hij. apply (proj1 (NoDup_nth ns 0%Qc) Hn i j Hi (Hl j (or_introl eq_refl))).
    revert Z. generalize (nth i ns 0%Qc) (nth j ns 0%Qc). intros u v Z. transitivity (u - v + v)%Qc; [ring|rewrite Z; ring]. }
  apply G; [intros j Hj; apply in_seq in Hj; lia|apply q2r_1].
Qed.

(** ** with distinguishable texts the memory is invisible *)
Local Open Scope nat_scope.
Definition translate (o : pop) : op := match o with Points a => New a | Eval ns x => Call [x] (str_nodes_key ns) 10 end.
Definition by_text (U : list (list Qc)) (s : string) (xs : list arr) : option arr :=
  match List.find (fun ns => String.eqb (str_nodes_key ns) s) U with Some ns => lagrange_array ns xs | None => None end.
Lemma call_ext F G st xs s m : (forall ys, F s ys = G s ys) -> call F st xs s m = call G st xs s m.
Proof. intros H. unfold call. destruct (read_all _ xs) as [ys|]; [|reflexivity]. rewrite H. reflexivity. Qed.
Definition separated (U : list (list Qc)) : Prop :=
  forall a b, In a U -> In b U -> str_nodes_key a = str_nodes_key b -> a = b.
Lemma by_text_in U ns : separated U -> In ns U -> forall ys, by_text U (str_nodes_key ns) ys = lagrange_array ns ys.
Proof.
  intros S H ys. unfold by_text. destruct (List.find _ U) as [ns'|] eqn:E.
  - apply List.find_some in E. destruct E as [E1 E2]. apply String.eqb_eq in E2. rewrite (S ns' ns E1 H E2). reflexivity.
  - exfalso. apply (List.find_none _ _ E) in H. rewrite String.eqb_refl in H. discriminate.
Qed.
Lemma call_str F st xs s m st' l : call F st xs s m = Some (st', l) -> l_str l = s /\ l_args l = xs.
Proof.
  unfold call. destruct (read_all _ xs); [|discriminate]. destruct (comparer _ _ _ _) as [[c [r|]]|]; [intros [= <- <-]; auto| |discriminate].
  destruct (F s l0); [|intros [= <- <-]; auto]. destruct (add _ _ _ _ _); [|discriminate]. intros [= <- <-]; auto.
Qed.
Lemma prun_run U ops st st' log : separated U -> (forall ns x, In (Eval ns x) ops -> In ns U) -> prun st ops = Some (st', log) ->
  run (by_text U) st (map translate ops) = Some (st', map snd log) /\ Forall (fun nl => In (fst nl) U /\ l_str (snd nl) = str_nodes_key (fst nl)) log.
Proof.
  intros S. revert st st' log. induction ops as [|o ops IH]; intros st st' log H E; cbn [prun run map] in *.
  - injection E as <- <-. split; [reflexivity|constructor].
  - destruct (pstep st o) as [[s1 l1]|] eqn:E1; [|discriminate].
    destruct (prun s1 ops) as [[s2 l2]|] eqn:E2; [|discriminate]. injection E as <- <-.
    destruct (IH s1 s2 l2 (fun ns x Hx => H ns x (or_intror Hx)) E2) as [R F].
    destruct o as [a|ns x]; cbn [pstep translate step] in *.
    + injection E1 as <- <-. rewrite R. auto.
    + unfold evaluate in E1. assert (HU : In ns U) by (apply (H ns x); left; reflexivity).
      rewrite (call_ext _ (by_text U)) in E1 by (intros; symmetry; apply by_text_in; assumption).
      destruct (call (by_text U) st [x] (str_nodes_key ns) 10) as [[s3 l3]|] eqn:E3; [|discriminate]. injection E1 as <- <-.
      rewrite R. split; [reflexivity|]. constructor; [|exact F]. cbn. apply call_str in E3. tauto.
Qed.
Lemma polite_translate F ops st used : polite F used st (map translate ops).
Proof.
  revert st used. induction ops as [|o ops IH]; intros st used; cbn [polite map]; [exact I|].
  split; [destruct o; exact I|]. destruct (step F st (translate o)) as [[s ls]|]; [apply IH|exact I].
Qed.
Lemma evaluations_exact U ops st log ns l : separated U -> (forall ns x, In (Eval ns x) ops -> In ns U) ->
  prun start ops = Some (st, log) ->
  (forall n1 l1 n2 l2, In (n1, l1) log -> In (n2, l2) log -> n1 = n2 -> Forall2 near_array (l_arrays l1) (l_arrays l2) -> l_arrays l1 = l_arrays l2) ->
  In (ns, l) log -> l_value l = lagrange_array ns (l_arrays l).
Proof.
  intros S H E N Hl. destruct (prun_run U ops start st log S H E) as [R F]. rewrite Forall_forall in F.
  assert (Fl := F _ Hl). cbn in Fl. destruct Fl as [Fl1 Fl2].
  rewrite (cached_exact (by_text U) (map translate ops) st (map snd log) l (polite_translate _ _ _ _) R).
  - rewrite Fl2. apply by_text_in; assumption.
  - intros l1 l2 H1 H2 Hs Hnear. apply in_map_iff in H1, H2. destruct H1 as ([n1 l1'] & <- & H1), H2 as ([n2 l2'] & <- & H2). cbn [fst snd] in *.
    apply (N n1 l1' n2 l2'); try assumption. assert (F1 := F _ H1). assert (F2 := F _ H2). cbn [fst snd] in *.
    destruct F1 as [F1 T1], F2 as [F2 T2]. apply S; try assumption. congruence.
  - apply in_map_iff. exists (ns, l). auto.
Qed.

(** * two node sets with the same text *)
Definition ns_a := [Q2Qc (-1); Q2Qc (1#10); 1%Qc].
Definition ns_b := [Q2Qc (-1); Q2Qc (100001#1000000); 1%Qc].
Definition two_sets := [Points {| shape := [1%nat]; data := [Q2Qc (100001#1000000)] |}; Eval ns_a 0; Eval ns_b 0].
Lemma shared_text : exists ops st log l v, prun start ops = Some (st, log) /\ In (ns_b, l) log /\
  l_value l = Some v /\ l_arrays l = [{| shape := [1%nat]; data := [nth 1 ns_b 0%Qc] |}] /\ nth 1 (data v) 0%Qc <> 1%Qc /\ l_value l <> lagrange_array ns_b (l_arrays l).
Proof.
  destruct (prun start two_sets) as [[st log]|] eqn:E; [|vm_compute in E; discriminate].
  assert (C : match prun start two_sets with
              | Some (_, [(_, _); (ns, l)]) => match l_value l, l_arrays l with
                                               | Some v, [{| shape := [1%nat]; data := [y] |}] => if Qc_eq_dec (nth 1 (data v) 0%Qc) 1%Qc then False else ns = ns_b /\ y = nth 1 ns_b 0%Qc
                                               | _, _ => False
                                               end
              | _ => False
              end).
  { vm_compute. split; reflexivity. }
  rewrite E in C. destruct log as [|[? ?] [|[ns l] [|]]]; try contradiction.
  destruct (l_value l) as [v|] eqn:Ev; [|contradiction].
  destruct (l_arrays l) as [|[[|[|[|]] [|]] [|y [|]]] [|]] eqn:Ea; try contradiction.
  destruct (Qc_eq_dec (nth 1 (data v) 0%Qc) 1%Qc) as [|N]; [contradiction|]. destruct C as [-> ->].
  exists two_sets, st, [(l0, l1); (ns_b, l)], l, v. split; [exact E|]. split; [right; left; reflexivity|]. split; [exact Ev|]. split; [exact Ea|].
  split; [exact N|]. rewrite Ev, Ea. intros [= F]. apply N. rewrite F. vm_compute. reflexivity.
Qed.
