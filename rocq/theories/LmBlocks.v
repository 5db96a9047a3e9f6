(** Block matrices and concatenated vectors *)
From Coq Require Import List Arith ZArith Lia Bool QArith Qcanon Permutation.
From Verif Require Import Dict GmModel GmSpec GmProofs GmChain GmData GmFind QSums LmModel LmSpec LmProofs LmVec LmCustom LmSystem.
Import ListNotations.
Local Open Scope nat_scope.

Notation sum := (fold_right Nat.add 0).
Definition off (ls : list nat) (i : nat) : nat := sum (firstn i ls).

(** ** positions in concatenations *)
Lemma off_0 ls : off ls 0 = 0. Proof. reflexivity. Qed.
Lemma off_S a ls i : off (a :: ls) (S i) = a + off ls i. Proof. reflexivity. Qed.
Lemma off_lt ls : forall i a, i < length ls -> a < nth i ls 0 -> off ls i + a < sum ls.
Proof.
  induction ls as [|x ls IH]; intros [|i] a Hi Ha; cbn [length] in *; try lia.
  - rewrite off_0. cbn in *. lia.
  - rewrite off_S. cbn [fold_right nth] in *. specialize (IH i a). lia.
Qed.
Lemma sumq_blocks ls : forall f, sumq (sum ls) f = qsum (map (fun i => sumq (nth i ls 0) (fun a => f (off ls i + a))) (seq 0 (length ls))).
Proof.
  induction ls as [|x ls IH]; intros f; [reflexivity|]. cbn [fold_right length seq map]. rewrite sumq_split.
  match goal with |- context [qsum (?a :: ?l)] => change (qsum (a :: l)) with (a + qsum l)%Qc end.
  f_equal. rewrite <- seq_shift, map_map, IH. apply qsum_map_ext. intros i _. cbn [nth]. apply sumq_ext. intros a _. rewrite off_S. f_equal. lia.
Qed.
Lemma nth_error_concat_off {A} (ls : list (list A)) : forall i a l, nth_error ls i = Some l -> a < length l ->
  nth_error (concat ls) (off (map (@length A) ls) i + a) = nth_error l a.
Proof.
  induction ls as [|x ls IH]; intros [|i] a l Hi Ha; try discriminate; cbn [map concat].
  - injection Hi as ->. rewrite off_0. now rewrite nth_error_app1.
  - rewrite off_S, nth_error_app2 by lia. replace (length x + off (map (@length A) ls) i + a - length x) with (off (map (@length A) ls) i + a) by lia. apply IH; auto.
Qed.
Lemma length_concat_sum {A} (ls : list (list A)) : length (concat ls) = sum (map (@length A) ls).
Proof. induction ls as [|x ls IH]; cbn; auto. rewrite app_length. lia. Qed.
Lemma split_pos ls : forall p, p < sum ls -> exists i a, i < length ls /\ a < nth i ls 0 /\ p = off ls i + a.
Proof.
  induction ls as [|x ls IH]; cbn [fold_right]; intros p Hp; [lia|]. destruct (Nat.lt_ge_cases p x) as [H|H].
  - exists 0, p. repeat split; cbn; lia.
  - destruct (IH (p - x)) as (i & a & Hi & Ha & E); [lia|]. exists (S i), a. cbn [length nth]. rewrite off_S. repeat split; lia.
Qed.

(** ** scipy's bmat *)
Lemma extent_ok f n l : (exists m, In (Some m) l) -> (forall m, In (Some m) l -> f m = n) -> extent f l = Some n.
Proof.
  induction l as [|[m|] l IH]; intros (m0 & Hm) H; [destruct Hm| |].
  - cbn [extent]. destruct (extent f l) as [n'|] eqn:E.
    + assert (n' = n) as ->.
      { destruct (forallb (fun o : option smat => match o with None => true | _ => false end) l) eqn:EF.
        - exfalso. clear -E EF. induction l as [|[m|] l IH]; cbn in *; try discriminate. auto.
        - assert (exists m, In (Some m) l) as Hx.
          { clear -EF. induction l as [|[m|] l IH]; cbn in *; try discriminate; [eauto|]. destruct (IH EF) as [m ?]. eauto. }
          specialize (IH Hx (fun m Hm => H m (or_intror Hm))). congruence. }
      now rewrite (H m (or_introl eq_refl)), Nat.eqb_refl.
    + destruct (forallb _ l) eqn:EF; [f_equal; apply H; now left|]. exfalso.
      assert (exists m, In (Some m) l) as Hx.
      { clear -EF. induction l as [|[m|] l IH]; cbn in *; try discriminate; [eauto|]. destruct (IH EF) as [m ?]. eauto. }
      specialize (IH Hx (fun m Hm => H m (or_intror Hm))). discriminate.
  - cbn [extent]. apply IH; [|intros; apply H; now right]. destruct Hm as [|Hm]; [discriminate|eauto].
Qed.
Lemma line_at_app a b c : line_at (a ++ b) c = (line_at a c + line_at b c)%Qc.
Proof. unfold line_at. now rewrite filter_app, map_app, qsum_app. Qed.
Lemma line_at_shift o ln c : line_at (map (fun iv => (o + fst iv, snd iv)) ln) (o + c) = line_at ln c.
Proof.
  unfold line_at. f_equal. induction ln as [|iv ln IH]; cbn; auto. replace (o + fst iv =? o + c) with (fst iv =? c); [destruct (_ =? c); cbn; congruence|].
  destruct (Nat.eqb_spec (fst iv) c), (Nat.eqb_spec (o + fst iv) (o + c)); auto; lia.
Qed.
Lemma line_at_none ln c : (forall iv, In iv ln -> fst iv <> c) -> line_at ln c = 0%Qc.
Proof.
  intros H. unfold line_at. replace (filter _ ln) with (@nil (nat * Qc)); auto. induction ln as [|iv ln IH]; cbn; auto.
  destruct (Nat.eqb_spec (fst iv) c) as [E|]; [exfalso; apply (H iv); cbn; auto|]. apply IH. intros; apply H; now right.
Qed.
Definition block_fit (h : nat) (ws : list nat) (bs : list (option smat)) : Prop :=
  Forall2 (fun b w => match b with Some m => sm_ok m /\ sm_nr m = h /\ sm_nc m = w | None => True end) bs ws.
Lemma row_bound m r iv : In iv (nth r (to_rows m) []) -> fst iv < sm_nc m.
Proof.
  intros H. destruct (to_rows_ok m) as [_ F]. destruct (Nat.lt_ge_cases r (length (to_rows m))) as [Hr|Hr].
  - rewrite Forall_forall in F. specialize (F _ (nth_In _ [] Hr)). rewrite Forall_forall in F. auto.
  - rewrite nth_overflow in H by auto. destruct H.
Qed.
Lemma block_line_range r h bs ws : block_fit h ws bs -> forall o iv, In iv (block_line r o bs ws) -> o <= fst iv < o + sum ws.
Proof.
  induction 1 as [|b w bs ws Hb _ IH]; intros o iv Hi; cbn [block_line] in Hi; [destruct Hi|]. cbn [fold_right].
  apply in_app_or in Hi as [Hi|Hi].
  - destruct b as [m|]; [|destruct Hi]. apply in_map_iff in Hi as (iv' & <- & Hi). apply row_bound in Hi. cbn. destruct Hb as (_ & _ & <-). lia.
  - specialize (IH _ _ Hi). lia.
Qed.
Lemma block_line_at r h bs ws : block_fit h ws bs -> forall o j c, j < length ws -> c < nth j ws 0 ->
  line_at (block_line r o bs ws) (o + off ws j + c) = match nth j bs None with Some m => sm_at m r c | None => 0%Qc end.
Proof.
  induction 1 as [|b w bs ws Hb HF IH]; intros o j c Hj Hc; [cbn in Hj; lia|]. cbn [block_line]. rewrite line_at_app. destruct j as [|j].
  - rewrite off_0, Nat.add_0_r. cbn [nth] in *. rewrite (line_at_none (block_line r (o + w) bs ws)).
    + rewrite Qcplus_0_r. destruct b as [m|]; [|reflexivity]. rewrite line_at_shift. destruct Hb as (? & _). now apply to_rows_at.
    + intros iv Hi. apply (block_line_range r h bs ws HF) in Hi. lia.
  - rewrite off_S. cbn [nth length] in *. rewrite (line_at_none (match b with Some m => _ | None => _ end)).
    + rewrite Qcplus_0_l. replace (o + (w + off ws j) + c) with (o + w + off ws j + c) by lia. apply IH; auto. lia.
    + intros iv Hi. destruct b as [m|]; [|destruct Hi]. apply in_map_iff in Hi as (iv' & <- & Hi). apply row_bound in Hi. cbn. destruct Hb as (_ & _ & <-). lia.
Qed.
Definition blocks_fit (hs ws : list nat) (B : list (list (option smat))) : Prop := Forall2 (fun bs h => block_fit h ws bs) B hs.
Definition nth_block {A} (B : list (list (option A))) (i j : nat) : option A := nth j (nth i B []) None.
Lemma Forall2_nth_lt {A B} (P : A -> B -> Prop) l l' da db i : Forall2 P l l' -> i < length l' -> P (nth i l da) (nth i l' db).
Proof. intros H. revert i. induction H; intros [|i] Hi; cbn in *; auto; try lia. apply IHForall2. lia. Qed.
Lemma sp_bmat_ok hs ws B : blocks_fit hs ws B -> B <> [] ->
  (forall i, i < length hs -> exists j m, j < length ws /\ nth_block B i j = Some m) ->
  (forall j, j < length ws -> exists i m, i < length hs /\ nth_block B i j = Some m) ->
  exists m, sp_bmat B = Some m /\ sm_ok m /\ sm_nr m = sum hs /\ sm_nc m = sum ws /\
    forall i j a b, i < length hs -> j < length ws -> a < nth i hs 0 -> b < nth j ws 0 ->
      sm_at m (off hs i + a) (off ws j + b) = match nth_block B i j with Some m' => sm_at m' a b | None => 0%Qc end.
Proof.
  intros HB Hne Hr Hc. assert (exists b0 B0, B = b0 :: B0) as (b0 & B0 & EB) by (destruct B; [congruence|eauto]).
  assert (ES : sp_bmat B = if forallb (fun b => length b =? length b0) B then
        match obind B (extent sm_nr), obind (seq 0 (length b0)) (fun j => match column j B with Some c => extent sm_nc c | None => None end) with
        | Some hs, Some ws => Some {| sm_fmt := CSR; sm_nr := sum hs; sm_nc := sum ws;
                                      sm_lines := concat (map (fun hb => block_lines (fst hb) (snd hb) ws) (combine hs B)) |}
        | _, _ => None
        end
      else None) by (unfold sp_bmat; rewrite EB; reflexivity).
  assert (LB : length B = length hs) by (now apply Forall2_len in HB).
  assert (L : forall bs, In bs B -> length bs = length ws).
  { intros bs Hbs. apply In_nth_error in Hbs as [i Hi]. assert (Hi' : i < length hs) by (rewrite <- LB; apply nth_error_Some; congruence).
    pose proof (Forall2_nth_lt _ _ _ [] 0 i HB Hi') as Hf. rewrite (nth_error_nth _ _ [] Hi) in Hf. now apply Forall2_len in Hf. }
  assert (L0 : length b0 = length ws) by (apply L; rewrite EB; now left). rewrite ES, L0. clear ES.
  assert (forallb (fun b => length b =? length ws) B = true) as ->.
  { apply forallb_forall. intros bs Hbs. apply Nat.eqb_eq. auto. }
  assert (E1 : obind B (extent sm_nr) = Some hs).
  { apply obind_forall2. apply nth_Forall2; auto. intros i bs h Hi Hh. assert (Hi' : i < length hs) by (apply nth_error_Some; congruence).
    pose proof (Forall2_nth_lt _ _ _ [] 0 i HB Hi') as Hf. rewrite (nth_error_nth _ _ [] Hi), (nth_error_nth _ _ 0 Hh) in Hf. apply extent_ok.
    - destruct (Hr i Hi') as (j & m & Hj & Hm). exists m. unfold nth_block in Hm. rewrite (nth_error_nth _ _ [] Hi) in Hm. rewrite <- Hm. apply nth_In.
      apply Forall2_len in Hf. lia.
    - intros m Hm. apply In_nth_error in Hm as [j Hj]. assert (Hj' : j < length ws) by (apply Forall2_len in Hf; rewrite <- Hf; apply nth_error_Some; congruence).
      pose proof (Forall2_nth_lt _ _ _ None 0 j Hf Hj') as Hb. rewrite (nth_error_nth _ _ None Hj) in Hb. tauto. }
  assert (E2 : obind (seq 0 (length ws)) (fun j => match column j B with Some c => extent sm_nc c | None => None end) = Some ws).
  { apply obind_forall2. apply nth_Forall2; [now rewrite seq_length|]. intros j j' w Hj Hw. assert (Hj' : j < length ws) by (apply nth_error_Some; congruence).
    assert (j' = j) as -> by (rewrite (nth_error_nth' _ 0) in Hj by (rewrite seq_length; lia); rewrite seq_nth in Hj by lia; injection Hj; lia).
    unfold column. rewrite (obind_map_some _ (fun r => nth j r None)).
    - apply extent_ok.
      + destruct (Hc j Hj') as (i & m & Hi & Hm). exists m. apply in_map_iff. exists (nth i B []). split; auto. apply nth_In. lia.
      + intros m Hm. apply in_map_iff in Hm as (bs & Hm & Hbs). apply In_nth_error in Hbs as [i Hi]. assert (Hi' : i < length hs) by (rewrite <- LB; apply nth_error_Some; congruence).
        pose proof (Forall2_nth_lt _ _ _ [] 0 i HB Hi') as Hf. rewrite (nth_error_nth _ _ [] Hi) in Hf.
        pose proof (Forall2_nth_lt _ _ _ None 0 j Hf Hj') as Hb. rewrite Hm, (nth_error_nth _ _ 0 Hw) in Hb. tauto.
    - intros bs Hbs. apply nth_nth_error. rewrite (L bs Hbs). auto. }
  rewrite E1, E2. eexists. split; [reflexivity|]. cbn [sm_nr sm_nc sm_fmt sm_lines].
  set (F := fun hb : nat * list (option smat) => block_lines (fst hb) (snd hb) ws).
  assert (LL : map (@length _) (map F (combine hs B)) = hs).
  { clear -LB. revert B LB. induction hs as [|h hs IH]; intros [|b B] LB; try discriminate; auto. cbn [combine map]. f_equal; [|apply IH; auto].
    unfold F, block_lines. now rewrite map_length, seq_length. }
  split; [split|split; [reflexivity|split; [reflexivity|]]].
  - cbn. rewrite length_concat_sum. unfold major. cbn. now rewrite LL.
  - unfold minor. cbn. apply Forall_forall. intros ln Hln. apply in_concat in Hln as (lns & Hlns & Hln). apply in_map_iff in Hlns as ([h bs] & <- & Hin).
    apply in_map_iff in Hln as (r & <- & _). cbn [snd]. apply Forall_forall. intros iv Hiv. apply In_nth_error in Hin as [i Hi].
    assert (Hi' : i < length hs) by (rewrite <- LB; rewrite <- (Nat.min_id (length B)); rewrite LB at 1; rewrite <- combine_length; apply nth_error_Some; congruence).
    pose proof (Forall2_nth_lt _ _ _ [] 0 i HB Hi') as Hf. rewrite (nth_error_nth' _ (0, [])) in Hi by (rewrite combine_length; lia). rewrite combine_nth in Hi by lia. injection Hi as E3 E4. rewrite E3, E4 in Hf.
    apply (block_line_range r h bs ws Hf 0 iv) in Hiv. lia.
  - intros i j a b Hi Hj Ha Hb. unfold sm_at. cbn [sm_fmt sm_lines].
    assert (Hn : nth_error (map F (combine hs B)) i = Some (F (nth i hs 0, nth i B []))).
    { apply map_nth_error. rewrite (nth_error_nth' _ (0, [])) by (rewrite combine_length; lia). now rewrite combine_nth by lia. }
    pose proof (nth_error_concat_off _ i a _ Hn) as Hx. rewrite LL in Hx. unfold F at 1 in Hx. unfold block_lines in Hx at 1. rewrite map_length, seq_length in Hx. cbn [fst] in Hx.
    specialize (Hx Ha). unfold F at 2 in Hx. unfold block_lines in Hx. rewrite nth_error_map in Hx.
    rewrite (nth_error_nth' _ 0) in Hx by (rewrite seq_length; auto). rewrite seq_nth in Hx by auto. cbn [option_map fst snd] in Hx. rewrite (nth_error_nth _ _ [] Hx).
    pose proof (Forall2_nth_lt _ _ _ [] 0 i HB Hi) as Hf. apply (block_line_at (0 + a) (nth i hs 0) _ ws Hf 0 j b); auto.
Qed.

(** ** chains, also of one matrix *)
Definition glued (gms : list dgm) (c : dgm) (phi : nat -> nat -> nat) : Prop :=
  (forall e row, row_at c e row -> exists rows, Forall2 (fun g r => row_at g e r) gms rows /\
     row = concat (map (fun ir => map (phi (fst ir)) (snd ir)) (combine (seq 0 (length gms)) rows))) /\
  (forall i j g h d d', nth_error gms i = Some g -> nth_error gms j = Some h -> used g d -> used h d' -> phi i d = phi j d' -> i = j /\ d = d').
Lemma chain_facts gms c : Forall wf_numbering gms -> chain gms = Some c ->
  (exists phi, glued gms c phi) /\ wf_numbering c /\ gms <> [] /\ (forall g, In g gms -> agree g c).
Proof.
  intros Hw Hc. destruct gms as [|g [|g' r]]; [discriminate| |].
  - cbn in Hc. injection Hc as ->. inversion Hw; subst. split; [|split; [auto|split; [discriminate|]]].
    + exists (fun _ d => d). split.
      * intros e row Hr. exists [row]. split; [repeat constructor; auto|]. cbn. now rewrite map_id, app_nil_r.
      * intros [|i] [|j] g h d d' Hi Hj; cbn in Hi, Hj; [auto|destruct j; discriminate|destruct i; discriminate|destruct i; discriminate].
    + intros g [->|[]]. apply agree_refl.
  - change (chaining (g :: g' :: r) = Some c) in Hc. destruct (chaining_inv _ _ Hc) as (g0 & Hg0 & _ & _ & Hf). destruct (chaining_correct _ _ Hw Hc) as ((phi & HC1 & HC2 & _) & Hwc & g1 & Hg1 & Hk).
    split; [exists phi; split; auto|]. split; auto. split; [discriminate|]. assert (g1 = g0) as -> by congruence. intros h Hh.
    eapply agree_trans; [|apply agree_keys; symmetry; exact Hk]. apply (check_iff _ g0 Hg0) in Hf. apply Hf; auto. injection Hg0 as ->. now left.
Qed.
Lemma agree_elements a b : agree a b -> forall e, In e (elements a) <-> In e (elements b).
Proof. intros H e. rewrite !elements_keys. now apply agree_in. Qed.
Lemma agree_perm a b : wf_numbering a -> wf_numbering b -> agree a b -> Permutation (elements a) (elements b).
Proof. intros Ha Hb H. apply NoDup_Permutation; try now apply elements_nodup. now apply agree_elements. Qed.
Lemma elements_row (g : dgm) e : wf_numbering g -> In e (elements g) -> row_at g e (numbers g e).
Proof.
  intros Hw He. rewrite elements_keys in He. apply row_at_key in He as [row Hr]. pose proof Hr as (r & H1 & H2).
  rewrite (numbers_in g e row); auto. apply in_concat. eauto.
Qed.
Lemma row_elements (g : dgm) e row : wf_numbering g -> row_at g e row -> In e (elements g) /\ numbers g e = row.
Proof.
  intros Hw Hr. split; [rewrite elements_keys; apply row_at_key; eauto|]. destruct Hr as (r & H1 & H2). apply numbers_in; auto. apply in_concat. eauto.
Qed.
(** widths of the members in an element *)
Definition widths (gms : list dgm) (e : nat) : list nat := map (fun g => length (numbers g e)) gms.
Lemma nth_widths gms e i : i < length gms -> nth i (widths gms e) 0 = length (numbers (nth i gms []) e).
Proof.
  intros H. unfold widths. rewrite (nth_indep _ 0 ((fun g : dgm => length (numbers g e)) [])) by (now rewrite map_length). now rewrite (map_nth (fun g : dgm => length (numbers g e))).
Qed.
Lemma glued_numbers gms c phi e : Forall wf_numbering gms -> wf_numbering c -> glued gms c phi -> In e (elements c) ->
  length (numbers c e) = sum (widths gms e) /\
  forall i a, i < length gms -> a < length (numbers (nth i gms []) e) ->
    nth (off (widths gms e) i + a) (numbers c e) 0 = phi i (nth a (numbers (nth i gms []) e) 0).
Proof.
  intros Hw Hc (H1 & _) He. destruct (H1 e (numbers c e) (elements_row c e Hc He)) as (rows & HF & E).
  assert (ER : rows = map (fun g => numbers g e) gms).
  { clear -Hw HF. induction HF; auto. inversion Hw; subst. cbn. f_equal; auto. symmetry. now apply row_elements. }
  assert (LW : map (@length nat) (map (fun ir => map (phi (fst ir)) (snd ir)) (combine (seq 0 (length gms)) rows)) = widths gms e).
  { rewrite ER, map_map. unfold widths. generalize 0. clear. induction gms as [|g gms IH]; intros k; cbn; auto. rewrite map_length. f_equal. apply IH. }
  split; [rewrite E, length_concat_sum; now rewrite LW|].
  intros i a Hi Ha. rewrite E. apply nth_error_nth. rewrite <- LW.
  assert (LR : length rows = length gms) by (rewrite ER; apply map_length).
  rewrite (nth_error_concat_off _ i a (map (phi i) (numbers (nth i gms []) e))).
  - rewrite nth_error_map, (nth_nth_error _ _ 0 Ha). reflexivity.
  - rewrite nth_error_map, (nth_error_nth' _ (0, [])) by (rewrite combine_length, seq_length; lia).
    rewrite combine_nth by (rewrite seq_length; lia). rewrite seq_nth by auto. cbn. f_equal. f_equal. rewrite ER.
    rewrite (nth_indep _ [] ((fun g : dgm => numbers g e) [])) by (now rewrite map_length). now rewrite (map_nth (fun g : dgm => numbers g e)).
  - now rewrite map_length.
Qed.
Lemma widths_length gms e : length (widths gms e) = length gms. Proof. apply map_length. Qed.
(** summing over the places of a chained number is summing over the places of the dof *)
Lemma glued_sum gms c phi e i r (F : nat -> Qc) : Forall wf_numbering gms -> wf_numbering c -> glued gms c phi -> (forall g, In g gms -> agree g c) ->
  In e (elements c) -> i < length gms -> used (nth i gms []) r ->
  sumq (length (numbers c e)) (fun p => if nth p (numbers c e) 0 =? phi i r then F p else 0%Qc) =
  sumq (length (numbers (nth i gms []) e)) (fun a => if nth a (numbers (nth i gms []) e) 0 =? r then F (off (widths gms e) i + a) else 0%Qc).
Proof.
  intros Hw Hc Hg Ha He Hi Hu. destruct (glued_numbers gms c phi e Hw Hc Hg He) as [HL HN]. rewrite HL, sumq_blocks, widths_length.
  assert (U : forall I a, I < length gms -> a < length (numbers (nth I gms []) e) -> used (nth I gms []) (nth a (numbers (nth I gms []) e) 0)).
  { intros I a HI Hla. assert (Hin : In (nth I gms []) gms) by now apply nth_In. rewrite Forall_forall in Hw.
    apply (numbers_used _ e); auto; [|now apply nth_In]. apply (agree_elements _ c); auto. }
  rewrite (qsum_single Nat.eq_dec _ _ i).
  - rewrite nth_widths by auto. apply sumq_ext. intros a Hla. rewrite HN by auto.
    destruct (Nat.eqb_spec (nth a (numbers (nth i gms []) e) 0) r) as [->|Hne]; [now rewrite Nat.eqb_refl|].
    destruct (Nat.eqb_spec (phi i (nth a (numbers (nth i gms []) e) 0)) (phi i r)) as [E|]; auto. exfalso.
    apply (proj2 Hg i i (nth i gms []) (nth i gms [])) in E as [_ E]; auto using nth_nth_error.
  - apply seq_NoDup.
  - apply in_seq. lia.
  - intros I HI Hne. apply in_seq in HI. rewrite nth_widths by lia. apply sumq_zero. intros a Hla. rewrite HN by (auto; lia).
    destruct (Nat.eqb_spec (phi I (nth a (numbers (nth I gms []) e) 0)) (phi i r)) as [E|]; auto. exfalso.
    apply (proj2 Hg I i (nth I gms []) (nth i gms [])) in E as [E _]; auto; try (apply nth_nth_error; lia). apply U; auto. lia.
Qed.
(** a number that denotes dof [d] of member [i] is its chained number *)
Lemma denotes_phi gms c phi i d k : Forall wf_numbering gms -> wf_numbering c -> glued gms c phi -> denotes gms c i d k ->
  i < length gms /\ used (nth i gms []) d /\ k = phi i d.
Proof.
  intros Hw Hc Hg (e & rows & r & l & row & HF & Hr & Hl & Hrow & Hk).
  assert (ER : rows = map (fun g => numbers g e) gms).
  { clear -Hw HF. induction HF; auto. inversion Hw; subst. cbn. f_equal; auto. symmetry. now apply row_elements. }
  assert (Hi : i < length gms) by (rewrite (Forall2_len _ _ _ HF); apply nth_error_Some; congruence).
  destruct (row_elements c e row Hc Hrow) as [He <-]. destruct (glued_numbers gms c phi e Hw Hc Hg He) as [HL HN].
  assert (Er : r = numbers (nth i gms []) e).
  { rewrite ER, nth_error_map, (nth_nth_error _ _ [] Hi) in Hr. cbn in Hr. congruence. }
  assert (Hll : l < length r) by (apply nth_error_Some; congruence).
  assert (EO : length (concat (firstn i rows)) = off (widths gms e) i).
  { rewrite length_concat_sum, ER. unfold off, widths. f_equal. now rewrite firstn_map, map_map, <- firstn_map. }
  split; auto. split.
  - destruct (Forall2_nth_l _ _ _ i (nth i gms []) HF (nth_nth_error _ _ [] Hi)) as (b & Hb & Hrb). assert (b = r) as -> by congruence.
    exists e, r. split; auto. eapply nth_error_In; eauto.
  - apply (nth_error_nth _ _ 0) in Hk. rewrite <- Hk, EO, HN by (auto; now rewrite <- Er). rewrite <- Er. now rewrite (nth_error_nth _ _ 0 Hl).
Qed.
