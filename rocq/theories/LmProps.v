(** C19-C22, C25-C27: assembling, customizing, blocks, preconditioning.  Only statements and references to
    proofs; vocabulary in GmSpec.v and LmSpec.v, model in LmModel.v.  [fits], [vfits], [blocks_ok] and
    [vblocks_ok] (LmProofs.v, LmBmat.v, LmEssential.v) say that the data have the shapes of the numberings. *)
From Coq Require Import List Arith ZArith Lia QArith Qcanon Permutation.
From Verif Require Import Dict GmModel GmSpec GmProofs QSums LmModel LmSpec LmProofs LmVec LmSystem LmBlocks LmBmat LmEssential LmJacobi.
Import ListNotations.
Local Open Scope nat_scope.

(** Examples: two elements in two ranks sharing dof 1 *)
Definition xg : dgm := [[(0, [0; 1])]; [(1, [1; 2])]].
Definition xm (f : fmt) (a b c d : Z) : smat := {| sm_fmt := f; sm_nr := 2; sm_nc := 2; sm_lines := [[(0, qz a); (1, qz b)]; [(0, qz c); (1, qz d)]] |}.
Definition xA : list lmat := [[(0, xm CSR 1 2 3 4)]; [(1, xm CSC 5 6 7 8)]].
Definition xb : list lvec := [[(0, map qz [1; 2]%Z)]; [(1, map qz [3; 4]%Z)]].
Lemma xg_wf : wf_numbering xg.
Proof. unfold wf_numbering, xg. simpl. repeat constructor; simpl; intuition congruence. Qed.
Lemma xA_fits : fits xg xg xA.
Proof.
  split; [apply xg_wf|]. split; [apply xg_wf|]. split; [reflexivity|]. split; [repeat (apply Forall2_cons; [intros ?; reflexivity|]); apply Forall2_nil|].
  intros e m [[= <- <-]|[[= <- <-]|[]]]; cbn; (split; [split; [reflexivity|repeat constructor]|auto]).
Qed.
Lemma xb_fits : vfits xg xb.
Proof. split; [apply xg_wf|]. split; [reflexivity|]. intros e d [[= <- <-]|[[= <- <-]|[]]]; reflexivity. Qed.
Lemma xg_nodup : rows_nodup xg.
Proof. intros e row (r & [<-|[<-|[]]] & [[= <- <-]|[]]); repeat constructor; simpl; intuition congruence. Qed.
Lemma xg_used d : d < 3 -> used xg d.
Proof.
  intros H. destruct d as [|[|[|d]]]; [exists 0, [0; 1]|exists 0, [0; 1]|exists 1, [1; 2]|lia]; (split; [|simpl; auto]).
  - exists [(0, [0; 1])]. simpl; auto.
  - exists [(0, [0; 1])]. simpl; auto.
  - exists [(1, [1; 2])]. simpl; auto.
Qed.

(** * C19 assembling matrices *)

(** every entry is the sum over all elements and local places numbered like it *)
Theorem assembled_matrix_entries gr gc Ms : fits gr gc Ms ->
  exists A, assemble_matrix None gr gc Ms = Some A /\ length A = length gr /\
    (forall r c, value_at A r c = global_entry gr gc (mat_of Ms) r c) /\
    (forall ts r c v, In ts A -> In (r, c, v) ts -> used gr r /\ used gc c).
Proof. exact (assemble_matrix_ok gr gc Ms). Qed.
Print Assumptions assembled_matrix_entries.

(** the product is the assembled vector of the local products *)
Theorem assembled_matrix_product gr gc Ms x : fits gr gc Ms -> exists A, assemble_matrix None gr gc Ms = Some A /\
  forall r, sumq (num_dofs gc) (fun c => value_at A r c * x c)%Qc =
    global_value gr (fun e a => sumq (length (numbers gc e)) (fun b => mat_of Ms e a b * x (nth b (numbers gc e) 0%nat)))%Qc r.
Proof. exact (assembled_product gr gc Ms x). Qed.
Print Assumptions assembled_matrix_product.

(** the distribution of the elements over the ranks does not matter *)
Theorem assembled_matrix_any_distribution gr gc Ms gr' gc' Ms' : fits gr gc Ms -> fits gr' gc' Ms' ->
  Permutation (concat gr) (concat gr') -> Permutation (concat gc) (concat gc') -> Permutation (concat Ms) (concat Ms') ->
  exists A A', assemble_matrix None gr gc Ms = Some A /\ assemble_matrix None gr' gc' Ms' = Some A' /\ forall r c, value_at A r c = value_at A' r c.
Proof. exact (assembly_distribution gr gc Ms gr' gc' Ms'). Qed.
Print Assumptions assembled_matrix_any_distribution.

Example assembled_meets : exists A, fits xg xg xA /\ assemble_matrix None xg xg xA = Some A /\
  value_at A 1 1 = qz 9 /\ value_at A 0 1 = qz 2 /\ value_at A 1 2 = qz 7 /\ value_at A 2 1 = qz 6 /\ value_at A 0 2 = 0%Qc.
Proof. eexists. split; [apply xA_fits|]. split; [reflexivity|]. repeat split; vm_compute; reflexivity. Qed.
Example distribution_meets : fits [[]; concat xg] [[]; concat xg] [[]; concat xA] /\ Permutation (concat [[]; concat xg]) (concat xg).
Proof.
  split; [|reflexivity]. pose proof xg_wf as W. split; [exact W|]. split; [exact W|]. split; [reflexivity|]. split; [repeat (apply Forall2_cons; [intros ?; reflexivity|]); apply Forall2_nil|].
  intros e m [[= <- <-]|[[= <- <-]|[]]]; cbn; (split; [split; [reflexivity|repeat constructor]|auto]).
Qed.

(** * C20 assembling vectors *)

Theorem assembled_vector_entries g bs : vfits g bs -> rows_nodup g ->
  exists V, assemble_vector g bs = Some V /\ length V = length g /\ Forall (fun v => length v = num_dofs g) V /\
    forall r, vec_at V r = global_value g (vec_of bs) r.
Proof. exact (assemble_vector_ok g bs). Qed.
Print Assumptions assembled_vector_entries.

(** a dof twice in one element: only the last contribution is kept *)
Theorem assembled_vector_repeated_dof_refuted : exists V, let g := [[(0, [0; 1; 0])]] in let bs := [[(0, map qz [1; 2; 3]%Z)]] in
  vfits g bs /\ assemble_vector g bs = Some V /\ vec_at V 0 = qz 3 /\ global_value g (vec_of bs) 0 = qz 4.
Proof. exact (vector_duplicate_lost). Qed.
Print Assumptions assembled_vector_repeated_dof_refuted.

Example assembled_vector_meets : exists V, vfits xg xb /\ rows_nodup xg /\ assemble_vector xg xb = Some V /\ vec_at V 1 = qz 5.
Proof. eexists. split; [apply xb_fits|]. split; [apply xg_nodup|]. split; vm_compute; reflexivity. Qed.

(** * C21 customizing rows *)

(** the last customisation of a row decides; the others are left alone *)
Theorem customised_rows g Ms ops : fits g g Ms ->
  Forall (fun op => exists d, index_of_dof (num_dofs g) (snd op) d /\ (fst op = true -> used g d)) ops ->
  exists A Ms' A', assemble_matrix None g g Ms = Some A /\ customise g Ms ops = Some Ms' /\ assemble_matrix None g g Ms' = Some A' /\
    forall r c, r < num_dofs g -> value_at A' r c =
      match last_op (num_dofs g) ops r with
      | Some true => if c =? r then 1%Qc else 0%Qc
      | Some false => 0%Qc
      | None => value_at A r c
      end.
Proof. exact (customised_matrix g Ms ops). Qed.
Print Assumptions customised_rows.

(** with different row and column numberings the one is in another column *)
Theorem identified_row_rectangular_refuted : exists gr gc Ms Ms' A', fits gr gc Ms /\ num_dofs gr = num_dofs gc /\ identify_row gr Ms 0%Z = Some Ms' /\
  assemble_matrix None gr gc Ms' = Some A' /\ value_at A' 0 0 = 0%Qc /\ value_at A' 0 1 = 1%Qc.
Proof. exact (identify_rectangular_refuted). Qed.
Print Assumptions identified_row_rectangular_refuted.

Example customised_meets : exists Ms A, Forall (fun op => exists d, index_of_dof (num_dofs xg) (snd op) d /\ (fst op = true -> used xg d)) [(false, 1%Z); (true, (-2)%Z); (true, 0%Z)] /\
  customise xg xA [(false, 1%Z); (true, (-2)%Z); (true, 0%Z)] = Some Ms /\ assemble_matrix None xg xg Ms = Some A /\
  map (fun r => map (value_at A r) [0; 1; 2]) [0; 1; 2] = map (map qz) [[1; 0; 0]; [0; 1; 0]; [0; 6; 8]]%Z.
Proof.
  eexists. eexists. split; [|split; [vm_compute; reflexivity|split; [vm_compute; reflexivity|vm_compute; reflexivity]]].
  repeat constructor; [exists 1|exists 1|exists 0]; (split; [split; [vm_compute; lia|vm_compute; auto]|]); intros; try discriminate; apply xg_used; lia.
Qed.

(** * C22 prescribed dofs *)

(** solutions: the prescribed values and all other original equations *)
Theorem prescribed_dofs_exact g Ms bs ds vs : fits g g Ms -> vfits g bs -> rows_nodup g -> length vs = length ds ->
  Forall (fun i => exists d, index_of_dof (num_dofs g) i d /\ used g d) ds ->
  exists A b Ms' bs' A' b', assemble_matrix None g g Ms = Some A /\ assemble_vector g bs = Some b /\
    set_dofs g Ms bs ds vs = Some (Ms', bs') /\ assemble_matrix None g g Ms' = Some A' /\ assemble_vector g bs' = Some b' /\
    forall x : nat -> Qc, (forall r, r < num_dofs g -> row_solved (num_dofs g) (value_at A') (vec_at b') x r) <->
      (forall r, r < num_dofs g -> match last_op (num_dofs g) (assignments ds vs) r with
                                   | Some v => x r = v
                                   | None => row_solved (num_dofs g) (value_at A) (vec_at b) x r
                                   end).
Proof. exact (prescribed_system g Ms bs ds vs). Qed.
Print Assumptions prescribed_dofs_exact.

(** conditions on one unknown of a block system *)
Theorem essential_conditions_exact gms cg B bs i0 ds vs : Forall wf_numbering gms -> chain gms = Some cg -> blocks_ok gms gms B -> vblocks_ok gms bs -> Forall rows_nodup gms ->
  i0 < length gms -> (forall j, j < length gms -> nth_block B i0 j <> None) -> nth i0 bs None <> None -> length vs = length ds ->
  Forall (fun i => exists d, index_of_dof (num_dofs (nth i0 gms [])) i d /\ used (nth i0 gms []) d) ds ->
  exists Mb A Vb b B' bs' Mb' A' Vb' b',
    bmat cg B = Some Mb /\ assemble_matrix None cg cg Mb = Some A /\ concatenate cg gms bs = Some Vb /\ assemble_vector cg Vb = Some b /\
    apply_essential_bc gms B bs i0 ds vs = Some (B', bs') /\
    bmat cg B' = Some Mb' /\ assemble_matrix None cg cg Mb' = Some A' /\ concatenate cg gms bs' = Some Vb' /\ assemble_vector cg Vb' = Some b' /\
    let n := num_dofs cg in
    forall x : nat -> Qc, (forall k, k < n -> row_solved n (value_at A') (vec_at b') x k) <->
      (forall k, k < n ->
         (forall d v, denotes gms cg i0 d k -> last_op (num_dofs (nth i0 gms [])) (assignments ds vs) d = Some v -> x k = v) /\
         (~ (exists d v, denotes gms cg i0 d k /\ last_op (num_dofs (nth i0 gms [])) (assignments ds vs) d = Some v) -> row_solved n (value_at A) (vec_at b) x k)).
Proof. exact (essential_bc_exact gms cg B bs i0 ds vs). Qed.
Print Assumptions essential_conditions_exact.

Example prescribed_meets : exists A b Ms bs, set_dofs xg xA xb [1%Z] [qz 7] = Some (Ms, bs) /\ assemble_matrix None xg xg Ms = Some A /\ assemble_vector xg bs = Some b /\
  map (value_at A 1) [0; 1; 2] = map qz [0; 1; 0]%Z /\ map (vec_at b) [0; 1; 2] = map qz [1; 7; 4]%Z.
Proof. eexists. eexists. eexists. eexists. repeat split; vm_compute; reflexivity. Qed.
(** two unknowns on the same two elements *)
Definition yg : dgm := [[(0, [0; 1])]; [(1, [2; 1])]].
Lemma yg_wf : wf_numbering yg.
Proof. unfold wf_numbering, yg. simpl. repeat constructor; simpl; intuition congruence. Qed.
Definition yA : list lmat := [[(0, xm CSC 1 0 0 1)]; [(1, xm CSR 2 0 0 2)]].
Lemma fits_xy g h Ms : In g [xg; yg] -> In h [xg; yg] -> In Ms [xA; yA] -> fits g h Ms.
Proof.
  intros Hg Hh HM. assert (W : forall g, In g [xg; yg] -> wf_numbering g) by (intros k [<-|[<-|[]]]; [apply xg_wf|apply yg_wf]).
  split; [auto|]. split; [auto|].
  destruct Hg as [<-|[<-|[]]], Hh as [<-|[<-|[]]], HM as [<-|[<-|[]]]; (split; [reflexivity|]; split; [repeat (apply Forall2_cons; [intros ?; reflexivity|]); apply Forall2_nil|]);
    intros e m [[= <- <-]|[[= <- <-]|[]]]; cbn; (split; [split; [reflexivity|repeat constructor]|auto]).
Qed.
Definition xB : list (list (option (list lmat))) := [[Some xA; Some yA]; [Some yA; None]].
Example blocks_meet : Forall wf_numbering [xg; yg] /\ blocks_ok [xg; yg] [xg; yg] xB /\ vblocks_ok [xg; yg] [Some xb; None] /\ Forall rows_nodup [xg; yg] /\
  (forall j, j < 2 -> nth_block xB 0 j <> None) /\ index_of_dof (num_dofs xg) (-1) 2 /\ used xg 2.
Proof.
  split; [constructor; [apply xg_wf|constructor; [apply yg_wf|constructor]]|]. split.
  { split; [reflexivity|]. split; [repeat constructor|]. split; [|split].
    - intros i j Ms H. destruct i as [|[|i]]; destruct j as [|[|j]]; cbn in H; try discriminate; try (injection H as <-; apply fits_xy; simpl; auto).
      all: try (destruct i); try (destruct j); discriminate.
    - intros [|[|i]] Hi; [exists 0, xA|exists 0, yA|simpl in Hi; lia]; simpl; auto.
    - intros [|[|i]] Hi; [exists 0, xA|exists 0, yA|simpl in Hi; lia]; simpl; auto. }
  split; [constructor; [apply xb_fits|constructor; [exact I|constructor]]|]. split.
  { constructor; [apply xg_nodup|]. constructor; [|constructor]. intros e row (r & [<-|[<-|[]]] & [[= <- <-]|[]]); repeat constructor; simpl; intuition congruence. }
  split; [intros [|[|j]] Hj; [discriminate|discriminate|lia]|]. split; [split; [vm_compute; lia|vm_compute; auto]|apply xg_used; lia].
Qed.
Example essential_meets : exists cg B bs Mb A Vb b, chain [xg; yg] = Some cg /\ apply_essential_bc [xg; yg] xB [Some xb; None] 0 [(-1)%Z] [qz 9] = Some (B, bs) /\
  bmat cg B = Some Mb /\ assemble_matrix None cg cg Mb = Some A /\ concatenate cg [xg; yg] bs = Some Vb /\ assemble_vector cg Vb = Some b /\
  cg = [[(0, [0; 1; 2; 3])]; [(1, [1; 4; 5; 3])]] /\ map (value_at A 4) (seq 0 6) = map qz [0; 0; 0; 0; 1; 0]%Z /\ vec_at b 4 = qz 9 /\ map (value_at A 1) (seq 0 6) = map qz [3; 9; 0; 1; 7; 2]%Z.
Proof. do 7 eexists. repeat split; vm_compute; reflexivity. Qed.

(** * C25 blocks *)

(** the entry of the block matrix is the entry of the assembled block; missing blocks are zero *)
Theorem assembled_block_matrix gr gc cr cc B : Forall wf_numbering gr -> Forall wf_numbering gc -> chain gr = Some cr -> chain gc = Some cc -> blocks_ok gr gc B ->
  exists Mb A, bmat cr B = Some Mb /\ assemble_matrix None cr cc Mb = Some A /\
    forall i j r c k k', denotes gr cr i r k -> denotes gc cc j c k' ->
      match nth_block B i j with
      | Some Ms => exists Aij, assemble_matrix None (nth i gr []) (nth j gc []) Ms = Some Aij /\ value_at A k k' = value_at Aij r c
      | None => value_at A k k' = 0%Qc
      end.
Proof. exact (bmat_assembled gr gc cr cc B). Qed.
Print Assumptions assembled_block_matrix.

Theorem assembled_block_vector gms c bs : Forall wf_numbering gms -> chain gms = Some c -> vblocks_ok gms bs ->
  Forall rows_nodup gms -> exists Vb V, concatenate c gms bs = Some Vb /\ assemble_vector c Vb = Some V /\
    forall i r k, denotes gms c i r k ->
      match nth i bs None with
      | Some b => exists Vi, assemble_vector (nth i gms []) b = Some Vi /\ vec_at V k = vec_at Vi r
      | None => vec_at V k = 0%Qc
      end.
Proof. exact (concatenate_assembled gms c bs). Qed.
Print Assumptions assembled_block_vector.

Example block_meets : exists cg Mb A, chain [xg; yg] = Some cg /\ bmat cg xB = Some Mb /\ assemble_matrix None cg cg Mb = Some A /\
  denotes [xg; yg] cg 0 1 1 /\ denotes [xg; yg] cg 1 1 3 /\ value_at A 1 1 = qz 9 /\ value_at A 1 3 = qz 1 /\ value_at A 3 3 = 0%Qc.
Proof.
  do 3 eexists. split; [vm_compute; reflexivity|]. split; [vm_compute; reflexivity|]. split; [vm_compute; reflexivity|].
  split; [exists 0, [[0; 1]; [0; 1]], [0; 1], 1, [0; 1; 2; 3]|].
  - split; [|simpl; repeat split; auto; exists [(0, [0; 1; 2; 3])]; simpl; auto]. constructor; [exists [(0, [0; 1])]; simpl; auto|]. constructor; [exists [(0, [0; 1])]; simpl; auto|constructor].
  - split; [exists 0, [[0; 1]; [0; 1]], [0; 1], 1, [0; 1; 2; 3]|repeat split; vm_compute; reflexivity].
    split; [|simpl; repeat split; auto; exists [(0, [0; 1; 2; 3])]; simpl; auto]. constructor; [exists [(0, [0; 1])]; simpl; auto|]. constructor; [exists [(0, [0; 1])]; simpl; auto|constructor].
Qed.

(** * C26 the Jacobi preconditioner *)

(** row by row, so also for all rows together; any diagonal *)
Theorem jacobi_keeps_solutions n A V x : Forall (fun v => length v = n) V ->
  forall r, r < n -> row_solved n (value_at (scale_rows (jacobi_diag n A) A)) (vec_at (scale_vec (jacobi_diag n A) V)) x r <-> row_solved n (value_at A) (vec_at V) x r.
Proof. exact (jacobi_solutions n A V x). Qed.
Print Assumptions jacobi_keeps_solutions.

Theorem jacobi_scales_diagonal n A r : r < n -> (1 <= value_at A r r)%Qc -> value_at (scale_rows (jacobi_diag n A) A) r r = 1%Qc.
Proof. exact (jacobi_unit_diagonal n A r). Qed.
Print Assumptions jacobi_scales_diagonal.

Example jacobi_meets : let A := [[(0, 0, qz 4); (0, 1, qz 2)]; [(1, 1, qz (-3)); (2, 0, qz 1)]] in
  map (fun r => map (value_at (scale_rows (jacobi_diag 3 A) A) r) [0; 1; 2]) [0; 1; 2] = [[1; / qz 2; 0]; [0; qz (-3); 0]; [1; 0; 0]]%Qc.
Proof. vm_compute. reflexivity. Qed.

(** * C27 detected essential rows *)

Theorem essential_rows_of_one_rank n ts r : In r (essential_rows n [ts]) -> forall c, value_at [ts] r c = if c =? r then 1%Qc else 0%Qc.
Proof. exact (essential_rows_serial n ts r). Qed.
Print Assumptions essential_rows_of_one_rank.

(** no other rank stores entries of the row *)
Theorem essential_rows_of_one_owner n A r k : (forall k' ts', nth_error A k' = Some ts' -> k' <> k -> row_empty ts' r) ->
  In r (essential_rows n A) -> forall c, value_at A r c = if c =? r then 1%Qc else 0%Qc.
Proof. exact (essential_rows_exclusive n A r k). Qed.
Print Assumptions essential_rows_of_one_owner.

Theorem essential_rows_are_found n A r k ts : r < n -> nth_error A k = Some ts -> (exists v, In (r, r, v) ts) -> (forall c v, In (r, c, v) ts -> c = r) -> entry ts r r = 1%Qc ->
  (forall k' ts', nth_error A k' = Some ts' -> k' <> k -> row_empty ts' r) -> In r (essential_rows n A).
Proof. exact (essential_rows_complete n A r k ts). Qed.
Print Assumptions essential_rows_are_found.

(** a row that is a unit row in one rank only is reported *)
Theorem essential_rows_refuted : exists A, In 0 (essential_rows 2 A) /\ value_at A 0 0 = qz 3 /\ value_at A 0 1 = qz 5.
Proof. exact (essential_rows_two_ranks). Qed.
Print Assumptions essential_rows_refuted.

Example essential_rows_meet : exists Ms A, customise xg xA [(true, 1%Z)] = Some Ms /\ assemble_matrix None xg xg Ms = Some A /\ essential_rows 3 A = [1] /\
  row_empty (nth 1 A []) 1.
Proof.
  do 2 eexists. split; [vm_compute; reflexivity|]. split; [vm_compute; reflexivity|]. split; [vm_compute; reflexivity|].
  intros c v H. simpl in H. destruct H as [H|[H|[]]]; apply (f_equal (fun x => fst (fst x))) in H; discriminate.
Qed.
