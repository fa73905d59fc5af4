(** Concrete messages used in the examples beside the theorems. *)
From Verif Require Import Base DltModel Spec.

Definition quad_ECU1 : quad := Quad x45 x43 x55 x31.

(** 16-byte storage header: pattern, secs, microseconds, ECU id. *)
Definition sample_storage (secs : byte) (ecu : quad) : bytes :=
  [x44; x4c; x54; x01; secs; x00; x00; x00; x07; x00; x00; x00] ++ quad_bytes ecu.

(** A message without optional fields: header type 0x20, payload [pl] (fewer than 252 bytes). *)
Definition plain_message (secs : byte) (pl : bytes) : bytes :=
  sample_storage secs quad_ECU1 ++ [x20; x05; x00; u8 (N.of_nat (4 + length pl))] ++ pl.

(** "Hello World" *)
Definition hello : bytes := [x48; x65; x6c; x6c; x6f; x20; x57; x6f; x72; x6c; x64].

(** A message with timestamp and extended header (header type 0x31), as dd_dlt writes it. *)
Definition full_message (secs : byte) (ts : bytes) (pl : bytes) : bytes :=
  sample_storage secs quad_ECU1 ++ [x31; x05; x00; u8 (N.of_nat (18 + length pl))] ++
  ts ++ [x41; x00; x41; x50; x50; x31; x43; x54; x58; x31] ++ pl.

Definition m1 : bytes := full_message x0a [x00; x00; x01; x00] hello.
Definition m2 : bytes := plain_message x0b [x01; x02; x03].
Definition m3 : bytes := full_message x0c [x00; x00; x02; x00] [xff; xfe].
(** A message whose payload is itself a complete message. *)
Definition m_nested : bytes := plain_message x0d m2.

Lemma m1_valid : valid_message m1.  Proof. vm_compute. repeat split; intros; try congruence; lia. Qed.
Lemma m2_valid : valid_message m2.  Proof. vm_compute. repeat split; lia. Qed.
Lemma m3_valid : valid_message m3.  Proof. vm_compute. repeat split; lia. Qed.
Lemma m_nested_valid : valid_message m_nested.  Proof. vm_compute. repeat split; lia. Qed.

(** Too short for the fields its header type announces (ECU id and extended header flags). *)
Definition m_short : bytes := sample_storage x0e quad_ECU1 ++ [x25; x06; x00; x05; xaa].
Lemma m_short_valid : valid_message m_short.  Proof. vm_compute. repeat split; lia. Qed.

(** A corrupted message: the length field (3) is below the header size. *)
Definition m_corrupt : bytes := sample_storage x0f quad_ECU1 ++ [x20; x07; x00; x03].
