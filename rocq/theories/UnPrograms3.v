(** The programs of hexahedra. *)
From Coq Require Import Arith List Bool Lia.
From Verif Require Import NdArray LocalNumberingModel Dict GmModel GmProofs UnModel UnSpec UnProofs UnMesh UnSlices UnPrograms.
Import ListNotations.

Ltac out_tac3 :=
  intros s Hs; cbn [vslots] in Hs; rewrite ?in_app_iff in Hs;
  repeat match type of Hs with _ \/ _ => destruct Hs as [Hs|Hs] end;
  apply in_sl3 in Hs as (i & j & k & -> & Hi & Hj & Hk); cbn [in_ax] in *;
  rewrite ?in_app_iff; repeat match goal with |- In _ (whole _ _) \/ _ => first [left; apply whole3; exists i, j, k; repeat split; lia|right] end;
  apply whole3; exists i, j, k; repeat split; lia.

Section Space.
  Context (px py pz : nat) (Hx : 1 <= px) (Hy : 1 <= py) (Hz : 1 <= pz) (e : nat) (m : list nat) (t : etype) (b : bool) (Hm : 8 <= length m).
  Notation el := {| e_type := t; e_map := m; e_in := b |}.
  Ltac cases3 i j k :=
    assert (i = 0 \/ i = px \/ 1 <= i < px) as Ci by lia; assert (j = 0 \/ j = py \/ 1 <= j < py) as Cj by lia;
    assert (k = 0 \/ k = pz \/ 1 <= k < pz) as Ck by lia;
    destruct Ci as [Ci|[Ci|Ci]], Cj as [Cj|[Cj|Cj]], Ck as [Ck|[Ck|Ck]].
  Ltac wit3 i j k :=
    lazymatch goal with
    | |- _ \/ _ => first [left; wit3 i j k | right; wit3 i j k]
    | _ => apply in_sl3; exists i, j, k; cbn [in_ax]; repeat split; lia
    end.
  Ltac place3 := cbn [embed at3_0 at3_1 at3_2]; unfold node3, dx3, dy3, dz3, facet3; cbn [e_type e_map in_ax] in *; side_tac;
    cbn [end_of]; unfold face_x, face_y, face_z, vertex3; cbn [e_map map Nat.b2n Nat.add Nat.mul];
    first [reflexivity | f_equal; first [reflexivity | lia | list_lia]].
  Ltac dof3 :=
    intros s; cbn [k_dof H0 H1 H2 H3]; f_equal; unfold ln_m3n3k0, ln_m3n3k1, ln_m3n3k2, ln_m3n3k3; cbv zeta;
    rewrite !ar_eq by (simpl; nia); arrs_eq.
  Lemma hex0_ok : elem_ok (H0 px py pz) e el (hex0 px py pz).
  Proof.
    apply mk_elem_outs with (shs := [[px + 1; py + 1; pz + 1]]).
    - cbn [outs]. now rewrite app_nil_r.
    - dof3.
    - cbn [p_visits hex0 k_turn H0 e_map]. flist; vok_tac.
    - cbn [p_visits hex0]. nodup_tac.
    - cbn [p_visits hex0 e_map k_place H0]. flist; places_tac; place3.
    - intros s Hs. unfold hex0 in Hs. cbn [p_out] in Hs. apply whole3 in Hs as (i & j & k & -> & Hi & Hj & Hk). cbn [p_visits hex0].
      cases3 i j k; find_visit ltac:(fun _ => wit3 i j k).
    - cbn [p_visits hex0 p_out]. flist; out_tac3.
  Qed.
  Lemma hex1_ok : elem_ok (H1 px py pz) e el (hex1 px py pz).
  Proof.
    apply mk_elem_outs with (shs := [[px; py + 1; pz + 1]; [px + 1; py; pz + 1]; [px + 1; py + 1; pz]]).
    - cbn [outs]. now rewrite app_nil_r.
    - dof3.
    - cbn [p_visits hex1 k_turn H1 e_map]. flist; vok_tac.
    - cbn [p_visits hex1]. nodup_tac.
    - cbn [p_visits hex1 e_map k_place H1]. flist; places_tac; place3.
    - intros s Hs. unfold hex1 in Hs. cbn [p_out] in Hs. rewrite !in_app_iff in Hs.
      destruct Hs as [Hs|[Hs|Hs]]; apply whole3 in Hs as (i & j & k & -> & Hi & Hj & Hk); cbn [p_visits hex1];
      cases3 i j k; find_visit ltac:(fun _ => wit3 i j k).
    - cbn [p_visits hex1 p_out]. flist; out_tac3.
  Qed.
  Lemma hex2_ok : elem_ok (H2 px py pz) e el (hex2 px py pz).
  Proof.
    apply mk_elem_outs with (shs := [[px + 1; py; pz]; [px; py + 1; pz]; [px; py; pz + 1]]).
    - cbn [outs]. now rewrite app_nil_r.
    - dof3.
    - cbn [p_visits hex2 k_turn H2 e_map]. flist; vok_tac.
    - cbn [p_visits hex2]. nodup_tac.
    - cbn [p_visits hex2 e_map k_place H2]. flist; places_tac; place3.
    - intros s Hs. unfold hex2 in Hs. cbn [p_out] in Hs. rewrite !in_app_iff in Hs.
      destruct Hs as [Hs|[Hs|Hs]]; apply whole3 in Hs as (i & j & k & -> & Hi & Hj & Hk); cbn [p_visits hex2];
      cases3 i j k; find_visit ltac:(fun _ => wit3 i j k).
    - cbn [p_visits hex2 p_out]. flist; out_tac3.
  Qed.
  Lemma hex3_ok : elem_ok (H3 px py pz) e el (hex3 px py pz).
  Proof.
    apply mk_elem_outs with (shs := [[px; py; pz]]).
    - cbn [outs]. now rewrite app_nil_r.
    - dof3.
    - cbn [p_visits hex3 k_turn H3 e_map]. flist; vok_tac.
    - cbn [p_visits hex3]. nodup_tac.
    - cbn [p_visits hex3 e_map k_place H3]. flist; places_tac; reflexivity.
    - intros s Hs. unfold hex3 in Hs. cbn [p_out] in Hs. apply whole3 in Hs as (i & j & k & -> & Hi & Hj & Hk). cbn [p_visits hex3].
      find_visit ltac:(fun _ => wit3 i j k).
    - cbn [p_visits hex3 p_out]. flist; out_tac3.
  Qed.
End Space.
