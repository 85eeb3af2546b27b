(** * Model of the two [Display] implementations: of a context, src/context.rs:64-70, and of the result of a
    simulation, src/decision_tree.rs:613-621.
    [dev]: the text of the standard deviation; [setup], [server]: the texts of the two durations. *)
From Coq Require Import String Ascii.
From Verif Require Import MBase MCodec MPoly MRlwe MHash MTree MParams MOram MMain MJson MSeed.
Local Open Scope string_scope.

Definition show_nat (n : nat) : string := itoa (Z.of_nat n).
(** "({:?},{:?})" *)
Definition show_pair (a b : nat) : string := "(" +++ show_nat a +++ "," +++ show_nat b +++ ")".
(** src/context.rs:64-70.  [pt_modulus] can panic (a shift by 64 bits or more in a debug build). *)
Definition context_text (dev : string) (cx : ctx) : res string :=
  t <- pt_modulus (c_mode cx) (c_codec cx) ;;
  Ok ("q=64, poly_size=" +++ show_nat (c_n cx) +++ ", log_std=" +++ dev +++ ", default_decomp=" +++ show_pair (c_base cx) (c_level cx) +++
      ", ks_decomp=" +++ show_pair (c_ks_base cx) (c_ks_level cx) +++ ", negs_decomp=" +++ show_pair (c_negs_base cx) (c_negs_level cx) +++
      ", pt_modulus=(" +++ itoa t +++ ")").
(** src/decision_tree.rs:613-621. *)
Definition simulation_text (dev setup server : string) (r : simulation_result) : string :=
  "input_count=" +++ show_nat (sr_input_count r) +++ ", setup_duration=" +++ setup +++ ", server_duration=" +++ server +++ ", q=64, poly_size=" +++
  show_nat (sr_poly_size r) +++ ", log_std=" +++ dev +++ ", default_decomp=" +++ show_pair (sr_base_log r) (sr_level_count r) +++
  ", ks_decomp=" +++ show_pair (sr_ks_base_log r) (sr_ks_level_count r) +++ ", negs_decomp=" +++ show_pair (sr_negs_base_log r) (sr_negs_level_count r).
