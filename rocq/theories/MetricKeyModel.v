(** The metric key of an element of a "Linear" region:
    msepy/manifold/regions/standard/ct.py:84-158 [_distribute_to_element].

    Simplifications: lengths are rational numbers instead of floats, and
    the text "Linear:x0.5y0.25" is replaced by the list of rounded lengths
    in units of 1e-5 (one axis name per dimension, [str] of distinct rounded
    floats is distinct). *)
From Coq Require Import ZArith QArith Qround List.
Import ListNotations.
Local Open Scope Q_scope.

(** numpy and python rounding: to the nearest, ties to the even one *)
Definition rnd (q : Q) : Z :=
  let f := Qfloor q in
  match Qcompare (q - inject_Z f) (1 # 2) with
  | Lt => f
  | Gt => (f + 1)%Z
  | Eq => if Z.even f then f else (f + 1)%Z
  end.

(** [round(q, 5)] *)
Definition round5 (q : Q) : Q := inject_Z (rnd (q * 100000)) / 100000.

(** ct.py:95-99 and 108-109: [round(para * np.round(L, 5), 5)], in units of 1e-5 *)
Definition len_key (para L : Q) : Z := rnd (para * round5 L * 100000).

(** ct.py:116-121 for any number of axes; the loops index inside the layout *)
Definition metric_key (paras : list Q) (layout : list (list Q)) (ix : list nat) : list Z :=
  map (fun pli => len_key (fst (fst pli)) (nth (snd pli) (snd (fst pli)) 0))
      (combine (combine paras layout) ix).
