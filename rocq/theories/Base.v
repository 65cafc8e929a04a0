(** Base.v - outcomes, strings and small list helpers shared by all model files.
    Nothing here models a particular function of the repository. *)
From Coq Require Export String Ascii.
From Coq Require Export Arith ZArith Lia Bool List Permutation Sorted.
Export ListNotations.
Open Scope list_scope.
Open Scope nat_scope.

(** Outcome of running a piece of C++ code: a normal result, undefined behaviour
    (with a short tag saying which), or an uncaught exception. *)
Inductive outcome (A : Type) : Type :=
| Ok (a : A)
| UB (why : string)
| Throw (why : string).
Arguments Ok {A} a.
Arguments UB {A} why.
Arguments Throw {A} why.

Definition obind {A B} (m : outcome A) (f : A -> outcome B) : outcome B :=
  match m with Ok a => f a | UB w => UB w | Throw w => Throw w end.
Notation "'do' x <- m ; k" := (obind m (fun x => k))
  (at level 200, x name, m at level 100, k at level 200, right associativity).
Notation "'do' ' p <- m ; k" := (obind m (fun x => let p := x in k))
  (at level 200, p pattern, m at level 100, k at level 200, right associativity).

Definition is_ok {A} (o : outcome A) : bool := match o with Ok _ => true | _ => false end.
Definition is_ub {A} (o : outcome A) : bool := match o with UB _ => true | _ => false end.
Definition is_throw {A} (o : outcome A) : bool := match o with Throw _ => true | _ => false end.

(** Byte strings ([std::string]): lists of 8-bit characters. *)
Definition str := list ascii.
Definition S_ (s : string) : str := list_ascii_of_string s.
Definition chr (n : nat) : ascii := ascii_of_nat n.
Definition str_eqb (a b : str) : bool := if list_eq_dec ascii_dec a b then true else false.

Lemma str_eqb_eq a b : str_eqb a b = true <-> a = b.
Proof. unfold str_eqb. destruct (list_eq_dec ascii_dec a b); split; congruence. Qed.
Lemma str_eqb_refl a : str_eqb a a = true.
Proof. apply str_eqb_eq; reflexivity. Qed.

Definition mem_ascii (c : ascii) (s : str) : bool := existsb (Ascii.eqb c) s.
Lemma mem_ascii_In c s : mem_ascii c s = true <-> In c s.
Proof.
  unfold mem_ascii. rewrite existsb_exists. split.
  - intros [x [Hx He]]. apply Ascii.eqb_eq in He. subst; assumption.
  - intros H. exists c. split; [assumption|apply Ascii.eqb_refl].
Qed.

(** Specification-side helper: [x1 ++ sep ++ x2 ++ sep ... ++ xn]. *)
Fixpoint intercalate (sep : str) (l : list str) : str :=
  match l with
  | [] => []
  | [x] => x
  | x :: (_ :: _) as r => x ++ sep ++ intercalate sep r
  end.

Definition last_opt {A} (l : list A) : option A :=
  match rev l with [] => None | x :: _ => Some x end.

Definition is_some {A} (o : option A) : bool := match o with Some _ => true | None => false end.
Definition is_none {A} (o : option A) : bool := negb (is_some o).

(** [update i x l]: assignment [l[i] = x] (no effect if out of range; callers check the range). *)
Fixpoint update {A} (i : nat) (x : A) (l : list A) : list A :=
  match l, i with
  | [], _ => []
  | _ :: t, 0 => x :: t
  | h :: t, S i' => h :: update i' x t
  end.
Lemma update_length {A} i (x : A) l : length (update i x l) = length l.
Proof. revert i; induction l as [|h t IH]; intros [|i]; cbn; auto. Qed.

Lemma NoDup_app_comm_iff {A} (a b : list A) : NoDup (a ++ b) <-> NoDup (b ++ a).
Proof. split; intro H; eapply Permutation_NoDup; try exact H; apply Permutation_app_comm. Qed.
