(** * What a run of a driver consists of, for the properties of its self-checks. *)
From Verif Require Import MBase MPoly MRlwe MSched MOram SpecConc.
Local Open Scope nat_scope.

(** Rounds [js], one after the other on the same server: round [j] asks [ask j], the server runs [prog] under
    some schedule and replies; [ys] are the replies. *)
Inductive replies {Q Y} (pref : bool) (ask : nat -> res Q) (prog : server -> Q -> sprog Y) : list nat -> server -> list Y -> Prop :=
| RP_nil sv : replies pref ask prog [] sv []
| RP_cons j js sv qy y sv1 ys : ask j = Ok qy -> server_exec pref sv (prog sv qy) (Ok y) sv1 -> replies pref ask prog js sv1 ys ->
    replies pref ask prog (j :: js) sv (y :: ys).

(** [v] has the bits [bs], the least significant first. *)
Definition number_of (bs : list bool) (v : Z) : Prop := (0 <= v)%Z /\ forall i, Z.testbit v (Z.of_nat i) = nth i bs false.
(** Ciphertext [ct] decrypts to a plaintext whose constant coefficient is the bit [b]. *)
Definition bit_of (cx : ctx) (s : poly) (ct : rlwe) (b : bool) : Prop :=
  exists pt, decrypt_decode_rlwe cx s ct = Ok pt /\ nth_error pt 0 = Some (if b then 1 else 0)%Z.
(** Ciphertext [y] decrypts to [pt], and [v] is the noise measured on it. *)
Definition measured (cx : ctx) (s : poly) (pt : poly) (y : rlwe) (v : Z) : Prop :=
  decrypt_decode_rlwe cx s y = Ok pt /\ compute_noise_encoded cx s y pt = Ok v.
