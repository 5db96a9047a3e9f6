(** What is expected of memoised functions and of frozen objects. *)
From Coq Require Import List ZArith QArith Qcanon Bool String Ascii.
From Verif Require Import Dict MemoModel.
Import ListNotations.
Local Open Scope nat_scope.
Local Open Scope string_scope.

(** simple arguments: integers, booleans, None; keywords are identifiers (no quotes, at least) *)
Definition simple (v : pv) : Prop := match v with PInt _ | PBool _ | PNone => True | _ => False end.
Fixpoint no_quote (s : string) : Prop := match s with EmptyString => True | String c r => c <> "'"%char /\ no_quote r end.
Definition simple_args (a : arguments) : Prop := Forall simple (fst a) /\ Forall (fun kv => no_quote (fst kv) /\ simple (snd kv)) (snd a).

(** objects: frozen now? used (table made) before? *)
Fixpoint frozen_after (o : nat) (l : list mop) (b : bool) : bool :=
  match l with
  | [] => b
  | Freeze_obj i :: q => frozen_after o q (if (i =? o)%nat then true else b)
  | Melt_obj i :: q => frozen_after o q (if (i =? o)%nat then false else b)
  | Call_obj _ _ :: q => frozen_after o q b
  end.
(** some earlier call was made while the object was not frozen *)
Definition used_before (o : nat) (l : list mop) : Prop := exists l1 a l2, l = (l1 ++ Call_obj o a :: l2)%list /\ frozen_after o l1 false = false.

(** a frozen object: attributes and a flag *)
Section FrozenSpec.
  Context {V : Type}.
  Variable class_names readonly : list string.
  Definition may_set (d : dict string V) (frozen : bool) (k : string) : bool :=
    (negb frozen || existsb (String.eqb k) (keys d) || existsb (String.eqb k) class_names) && negb (existsb (String.eqb k) readonly).
  Fixpoint expected (d : dict string V) (frozen : bool) (l : list (@fop V)) : dict string V * bool * list bool :=
    match l with
    | [] => (d, frozen, [])
    | FSet k v :: q => let '(d', b, rs) := if may_set d frozen k then expected (put String.eqb d k v) frozen q else expected d frozen q in (d', b, may_set d frozen k :: rs)
    | FDel k :: q => let '(d', b, rs) := expected (filter (fun kv => negb (String.eqb (fst kv) k)) d) frozen q in (d', b, existsb (String.eqb k) (keys d) :: rs)
    | FFreeze :: q => let '(d', b, rs) := expected d true q in (d', b, true :: rs)
    | FMelt :: q => let '(d', b, rs) := expected d false q in (d', b, true :: rs)
    end.
  Definition untouched (p : @fop V) : Prop := match p with FSet k _ | FDel k => k <> FROZEN | _ => True end.
End FrozenSpec.
