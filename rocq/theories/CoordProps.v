(** Property theorems C01-C03: coordinate packing (specification in [CoordSpec]). *)
From Verif Require Import Base CoordModel CoordSpec CoordProofs.
From Coq Require Import Qround Qabs Lqa.
Open Scope Z_scope.

(** *** C01 *)
Theorem C01_pack_unpack_roundtrip :
  forall (z : zeros) (i d : nat) (n : Z) (q : Q),
    (1 <= i)%nat -> (1 <= d)%nat ->
    Z.abs n < 10 ^ Z.of_nat (i + d) ->
    (q == inject_Z n / inject_Z (10 ^ Z.of_nat d))%Q ->
    exists s q', pack z i d q = Ok s /\ unpack z i d s = Ok q' /\ (q' == q)%Q.
Proof. intros z i d n q Hi Hd Hn Hq. exact (roundtrip_lemma z i d n Hi Hd Hn q Hq). Qed.
Print Assumptions C01_pack_unpack_roundtrip.

Example C01_case :
  (* -1.25 mm in 4.6 format, trailing zeros omitted: "-000125" *)
  pack SkipTrailing 4 6 (-(5 # 4))%Q = Ok (lit "-000125") /\
  (exists q, unpack SkipTrailing 4 6 (lit "-000125") = Ok q /\ (q == -(5 # 4))%Q).
Proof. split; [vm_compute; reflexivity|eexists; split; [vm_compute; reflexivity|reflexivity]]. Qed.

(** *** C02 *)
Theorem C02_unpack_value_and_errors :
  forall (z : zeros) (i d : nat) (sgn : Z) (ds s : str) (v : Z),
    SignedText sgn ds s -> spec_value ds = Some v ->
    ((i + d < length ds)%nat -> unpack z i d s = Err TooLong) /\
    (ds = [] -> unpack z i d s = Err TooShort) /\
    (ds <> [] -> (length ds <= i + d)%nat ->
       exists q, unpack z i d s = Ok q /\
         (q == match z with
               | SkipTrailing => inject_Z (sgn * v * 10 ^ Z.of_nat (i + d - length ds))
               | _ => inject_Z (sgn * v)
               end / inject_Z (10 ^ Z.of_nat d))%Q).
Proof. exact C02_lemma. Qed.
Print Assumptions C02_unpack_value_and_errors.

(** Writing one more omissible zero never changes the decoded coordinate. *)
Theorem C02_omitted_zero_is_irrelevant :
  forall (z : zeros) (i d : nat) (sgn : Z) (ds s s' : str) (v : Z),
    SignedText sgn ds s -> spec_value ds = Some v -> ds <> [] ->
    (length ds < i + d)%nat ->
    SignedText sgn (match z with
                    | SkipTrailing => ds ++ ["0"%char]
                    | _ => "0"%char :: ds end) s' ->
    exists q q', unpack z i d s = Ok q /\ unpack z i d s' = Ok q' /\ (q == q')%Q.
Proof. exact C02_padding_lemma. Qed.
Print Assumptions C02_omitted_zero_is_irrelevant.

Example C02_case :
  SignedText (-1) (lit "125") (lit "-125") /\ spec_value (lit "125") = Some 125 /\
  unpack SkipLeading 2 3 (lit "-125") = Ok (Qmake (-125) 1000) /\
  unpack SkipTrailing 2 3 (lit "-125") = Ok (Qmake (-12500) 1000) /\
  unpack SkipLeading 2 3 (lit "123456") = Err TooLong /\
  unpack SkipLeading 2 3 (lit "-") = Err TooShort.
Proof. split; [constructor|vm_compute; auto]. Qed.

(** *** C03 *)

(** Proved for formats with at least one integer and one decimal digit.
    Missing: formats with zero integer or zero decimal digits, see the refutation. *)
Theorem C03_pack_faithful_partial :
  forall (z : zeros) (i d : nat) (q : Q),
    (1 <= i)%nat -> (1 <= d)%nat -> PackFaithful z i d q.
Proof. exact pack_faithful. Qed.
Print Assumptions C03_pack_faithful_partial.

(** With zero decimal digits packing fails for every value; with zero integer digits
    even values below one are rejected as too long. *)
Theorem C03_pack_faithful_refuted :
  (exists z i d q, ~ PackFaithful z i d q) /\
  (forall z i q, pack z i 0 q = Err ValueError /\ ~ PackFaithful z i 0 q) /\
  (forall z d, (1 <= d)%nat -> pack z 0 d 0 = Err TooLong /\ ~ PackFaithful z 0 d 0).
Proof.
  split; [|split].
  - exists SkipLeading, 4%nat, 0%nat, 1%Q. apply not_faithful_decimal0.
  - intros z i q. split; [apply pack_decimal_zero|apply not_faithful_decimal0].
  - intros z d Hd. split; [apply pack_integer_zero; exact Hd|].
    apply not_faithful_integer0; [exact Hd|].
    assert (10 <= 10 ^ Z.of_nat d).
    { change 10 with (10 ^ 1) at 1. apply Z.pow_le_mono_r; lia. }
    rewrite Zle_Qle in H. change (Qabs 0) with 0%Q.
    change (inject_Z 10) with 10%Q in H. lra.
Qed.
Print Assumptions C03_pack_faithful_refuted.

Example C03_case :
  pack SkipLeading 2 2 (10001 # 1000)%Q = Ok (lit "1000") /\
  pack SkipLeading 2 2 (99996 # 1000)%Q = Err TooLong.
Proof. vm_compute; auto. Qed.
