(** PropsNumbers.v - property theorems C58 (numbers in the output). *)
From Coq Require Import ZArith NArith Reals Lra.
From Flocq Require Import Core.
From Verif Require Import Base Double DoubleFacts MathUtils Elements GeometrySpec ElementsProofs GridProofs Serialization SerializationSpec NumberSpec NumberProofs.

(** ** C58 Numbers are printed with six significant digits *)

(** Every finite number is printed as a decimal numeral whose value differs from the number by at most half a unit in the
    sixth significant digit, i.e. relatively by at most 5 * 10^-6 ([E d] is the real number denoted by the double [d]). *)
Theorem C58_accuracy : forall d, is_fin d = true ->
  exists r, decimal (print_double d) r /\ (Rabs (r - E d) <= Rabs (E d) * (5 / 1000000))%R.
Proof. exact print_double_accuracy. Qed.
Print Assumptions C58_accuracy.

(** A coordinate that was rounded to one decimal place is the double [d] nearest to k/10 for some integer k; below 100000
    in absolute value it is printed as exactly that decimal fraction. *)
Theorem C58_coordinates_exact : forall d, rounded1 d ->
  exists k : Z, E d = rd (IZR k / 10) /\ ((Z.abs k < 1000000)%Z -> decimal (print_double d) (IZR k / 10)).
Proof.
  intros d H. destruct (rounded1_tenth d H) as [k K]. exists k. split; [apply K|]. intros Hk. apply print_tenth; assumption.
Qed.
Print Assumptions C58_coordinates_exact.
(** Integers (ranks, page numbers, rotations, ...) are printed exactly. *)
Theorem C58_integers : forall z, decimal (print_Z z) (IZR z).
Proof. exact print_Z_decimal. Qed.
Print Assumptions C58_integers.
(** From 100000 on, the decimal place is lost: 123456.7 is printed as 123457, and 123456.6 too. *)
Theorem C58_large_refuted : exists a b, rounded1 a /\ rounded1 b /\ equal a b TOL = false /\ print_double a = print_double b.
Proof.
  exists (dec 1234566 1), (dec 1234567 1).
  split; [|split; [|split; [vm_compute; reflexivity|vm_compute; reflexivity]]].
  - apply rounded1_check. vm_compute. reflexivity.
  - apply rounded1_check. vm_compute. reflexivity.
Qed.
Print Assumptions C58_large_refuted.
Example C58_values : print_double (dec 744 1) = S_ "74.4" /\ print_double (dec (-21) 1) = S_ "-2.1" /\ print_double (dec 100000 1) = S_ "10000" /\
  print_double (dec 1 1) = S_ "0.1" /\ print_double (dec 12345678 1) = S_ "1.23457e+06" /\ print_double (dec 12 6) = S_ "1.2e-05" /\
  print_Z (-42) = S_ "-42" /\ is_fin (dec 744 1) = true.
Proof. vm_compute. repeat split. Qed.
Example C58_decimal : decimal (S_ "-2.5") (-2.5) /\ decimal (S_ "1e+06") 1000000 /\ decimal (S_ "0.05") (0.05).
Proof.
  assert (D : forall c, In c (S_ "0123456789") -> is_digit c) by (intros c H; repeat (destruct H as [<-|H]; [unfold is_digit; cbn; lia|]); destruct H).
  split; [|split].
  - pose proof (dec_num true (S_ "2") (S_ "5") None) as Q. replace (-2.5)%R with (-1 * (IZR (dval (S_ "2" ++ S_ "5")) * bpow ten (exponent_val None - Z.of_nat (length (S_ "5")))))%R.
    + apply Q; [split; [discriminate|constructor; [apply D; cbn; tauto|constructor]]|constructor; [apply D; cbn; tauto|constructor]|discriminate].
    + match goal with |- context [IZR (dval ?a)] => change (dval a) with 25%Z end. match goal with |- context [bpow ten ?a] => change (bpow ten a) with (/ 10)%R end. lra.
  - pose proof (dec_num false (S_ "1") [] (Some (false, S_ "06"))) as Q. replace 1000000%R with (1 * (IZR (dval (S_ "1" ++ [])) * bpow ten (exponent_val (Some (false, S_ "06")) - Z.of_nat (length ([] : str)))))%R.
    + apply Q; [split; [discriminate|constructor; [apply D; cbn; tauto|constructor]]|constructor|].
      intros b ed Q'. injection Q' as _ <-. split; [discriminate|]. constructor; [apply D; cbn; tauto|]. constructor; [apply D; cbn; tauto|constructor].
    + match goal with |- context [IZR (dval ?a)] => change (dval a) with 1%Z end. match goal with |- context [bpow ten ?a] => change (bpow ten a) with (1000000)%R end. lra.
  - pose proof (dec_num false (S_ "0") (S_ "05") None) as Q. replace 0.05%R with (1 * (IZR (dval (S_ "0" ++ S_ "05")) * bpow ten (exponent_val None - Z.of_nat (length (S_ "05")))))%R.
    + apply Q; [split; [discriminate|constructor; [apply D; cbn; tauto|constructor]]|constructor; [apply D; cbn; tauto|constructor; [apply D; cbn; tauto|constructor]]|discriminate].
    + match goal with |- context [IZR (dval ?a)] => change (dval a) with 5%Z end. match goal with |- context [bpow ten ?a] => change (bpow ten a) with (/ 100)%R end. lra.
Qed.
