(** The two numbers of the curve P-256 are prime: the field's, and the order of the group. *)
From Coq Require Import ZArith Znumtheory List.
From Verif Require Import Prime.Pocklington.
From Verif Require Int.Spec.
Import ListNotations.
Open Scope Z_scope.

Lemma prime_5 : prime 5.
Proof. apply (trial_prime 400); vm_compute; reflexivity. Qed.
Lemma prime_43 : prime 43.
Proof. apply (trial_prime 400); vm_compute; reflexivity. Qed.
Lemma prime_197 : prime 197.
Proof. apply (trial_prime 400); vm_compute; reflexivity. Qed.
Lemma prime_313 : prime 313.
Proof. apply (trial_prime 400); vm_compute; reflexivity. Qed.
Lemma prime_337 : prime 337.
Proof. apply (trial_prime 400); vm_compute; reflexivity. Qed.
Lemma prime_3023 : prime 3023.
Proof. apply (trial_prime 400); vm_compute; reflexivity. Qed.
Lemma prime_3677 : prime 3677.
Proof. apply (trial_prime 400); vm_compute; reflexivity. Qed.
Lemma prime_78283 : prime 78283.
Proof. apply (trial_prime 400); vm_compute; reflexivity. Qed.
Lemma prime_704251 : prime 704251.
Proof.
  apply (check_prime _ 2 [(313, 1, 512127); (5, 3, 306580)]); [|vm_compute; reflexivity].
  apply Forall_cons; [exact prime_313|]. apply Forall_cons; [exact prime_5|]. apply Forall_nil.
Qed.
Lemma prime_46076956964474543 : prime 46076956964474543.
Proof.
  apply (check_prime _ 2 [(704251, 1, 14499061334772664); (78283, 1, 41560644167870315)]); [|vm_compute; reflexivity].
  apply Forall_cons; [exact prime_704251|]. apply Forall_cons; [exact prime_78283|]. apply Forall_nil.
Qed.
Lemma prime_66417393611 : prime 66417393611.
Proof.
  apply (check_prime _ 2 [(3677, 1, 49445954925); (197, 1, 51215684949)]); [|vm_compute; reflexivity].
  apply Forall_cons; [exact prime_3677|]. apply Forall_cons; [exact prime_197|]. apply Forall_nil.
Qed.
Lemma prime_11290956913871 : prime 11290956913871.
Proof.
  apply (check_prime _ 2 [(66417393611, 1, 4247528171144)]); [|vm_compute; reflexivity].
  apply Forall_cons; [exact prime_66417393611|]. apply Forall_nil.
Qed.
Lemma prime_774023187263532362759620327192479577272145303 : prime 774023187263532362759620327192479577272145303.
Proof.
  apply (check_prime _ 2 [(46076956964474543, 1, 632032488684931311808149900400938671518447982); (11290956913871, 1, 320823578353898442153005187681585320549721256)]); [|vm_compute; reflexivity].
  apply Forall_cons; [exact prime_46076956964474543|]. apply Forall_cons; [exact prime_11290956913871|]. apply Forall_nil.
Qed.
Lemma prime_835945042244614951780389953367877943453916927241 : prime 835945042244614951780389953367877943453916927241.
Proof.
  apply (check_prime _ 2 [(774023187263532362759620327192479577272145303, 1, 829816007257442285709994915664332448456883264405)]); [|vm_compute; reflexivity].
  apply Forall_cons; [exact prime_774023187263532362759620327192479577272145303|]. apply Forall_nil.
Qed.
Lemma prime_p256_p : prime Int.Spec.p.
Proof.
  apply (check_prime _ 2 [(835945042244614951780389953367877943453916927241, 1, 35893950584104763925847036954507472337811148100266109799856099637894785463246)]); [|vm_compute; reflexivity].
  apply Forall_cons; [exact prime_835945042244614951780389953367877943453916927241|]. apply Forall_nil.
Qed.
Lemma prime_155317 : prime 155317.
Proof.
  apply (check_prime _ 2 [(43, 2, 148074)]); [|vm_compute; reflexivity].
  apply Forall_cons; [exact prime_43|]. apply Forall_nil.
Qed.
Lemma prime_191039911 : prime 191039911.
Proof.
  apply (check_prime _ 2 [(155317, 1, 69522358)]); [|vm_compute; reflexivity].
  apply Forall_cons; [exact prime_155317|]. apply Forall_nil.
Qed.
Lemma prime_208150935158385979 : prime 208150935158385979.
Proof.
  apply (check_prime _ 2 [(191039911, 1, 133855595432530999); (3023, 1, 70005499209399486)]); [|vm_compute; reflexivity].
  apply Forall_cons; [exact prime_191039911|]. apply Forall_cons; [exact prime_3023|]. apply Forall_nil.
Qed.
Lemma prime_2624747550333869278416773953 : prime 2624747550333869278416773953.
Proof.
  apply (check_prime _ 2 [(208150935158385979, 1, 2035673288804527262494271578)]); [|vm_compute; reflexivity].
  apply Forall_cons; [exact prime_208150935158385979|]. apply Forall_nil.
Qed.
Lemma prime_104471 : prime 104471.
Proof.
  apply (check_prime _ 2 [(337, 1, 27776)]); [|vm_compute; reflexivity].
  apply Forall_cons; [exact prime_337|]. apply Forall_nil.
Qed.
Lemma prime_3969899 : prime 3969899.
Proof.
  apply (check_prime _ 2 [(104471, 1, 2243650)]); [|vm_compute; reflexivity].
  apply Forall_cons; [exact prime_104471|]. apply Forall_nil.
Qed.
Lemma prime_1002328039319 : prime 1002328039319.
Proof.
  apply (check_prime _ 2 [(3969899, 1, 718861591819)]); [|vm_compute; reflexivity].
  apply Forall_cons; [exact prime_3969899|]. apply Forall_nil.
Qed.
Lemma prime_p256_n : prime Int.Spec.n.
Proof.
  apply (check_prime _ 2 [(2624747550333869278416773953, 1, 51921223869577043025896233410665706485550009771255122920941358412934482395187); (1002328039319, 1, 9631013060085677371482002832704039550345574303883859918124457045788451041694)]); [|vm_compute; reflexivity].
  apply Forall_cons; [exact prime_2624747550333869278416773953|]. apply Forall_cons; [exact prime_1002328039319|]. apply Forall_nil.
Qed.
