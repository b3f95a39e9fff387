(** Specification of use-list consistency, stated only with operands and targets of
    the existing values. *)
From Verif Require Import Base TypeModel IrModel UsesSpec.

(** In the value map [m], value [u] exists and has [v] as an operand. *)
Definition uses (m : gmap N vdata) (u v : value) : Prop :=
  ∃ d, m !! u = Some d ∧ v ∈ operands (v_kind d).

(** In the value map [m], value [u] exists and jumps to block [b]. *)
Definition jumps_to (m : gmap N vdata) (u : value) (b : bblock) : Prop :=
  ∃ d, m !! u = Some d ∧ b ∈ targets (v_kind d).

(** The local values and blocks of a function. *)
Notation vals fd := (d_values (f_dfg fd)).
Notation blks fd := (d_bbs (f_dfg fd)).

(** [u] is a user of the global value [v]: another global value, or a value of a
    function of the program. *)
Definition global_user (p : program) (v u : value) : Prop :=
  uses (p_values p) u v ∨ ∃ f fd, p_funcs p !! f = Some fd ∧ uses (vals fd) u v.

(** Every use list of the program is exactly the set of existing users. *)
Definition use_lists_exact (p : program) : Prop :=
  (∀ v d, p_values p !! v = Some d → ∀ u, u ∈ v_used_by d ↔ global_user p v u) ∧
  (∀ f fd v d, p_funcs p !! f = Some fd → vals fd !! v = Some d →
     ∀ u, u ∈ v_used_by d ↔ uses (vals fd) u v) ∧
  (∀ f fd b d, p_funcs p !! f = Some fd → blks fd !! b = Some d →
     ∀ u, u ∈ bb_used_by d ↔ jumps_to (vals fd) u b).

(** Every operand and every target of an existing value exists (and operands of
    global values are global values). *)
Definition no_dangling (p : program) : Prop :=
  (∀ u v, uses (p_values p) u v → is_Some (p_values p !! v)) ∧
  (∀ f fd u v, p_funcs p !! f = Some fd → uses (vals fd) u v →
     is_Some (p_values p !! v) ∨ is_Some (vals fd !! v)) ∧
  (∀ f fd u b, p_funcs p !! f = Some fd → jumps_to (vals fd) u b →
     is_Some (blks fd !! b)).

(** Everything about a value except its users. *)
Definition with_users (d : vdata) (s : gset N) : vdata :=
  VData (v_ty d) (v_name d) (v_kind d) s.
Definition bb_with_users (d : bbdata) (s : gset N) : bbdata :=
  BBData (bb_name d) (bb_params d) s.

(** [m'] is [m] without user [v] in any use list ([v] itself excepted). *)
Definition without_user (v : value) (m m' : gmap N vdata) : Prop :=
  ∀ x, x ≠ v → m' !! x = (λ d, with_users d (v_used_by d ∖ {[v]})) <$> m !! x.
Definition bb_without_user (v : value) (m m' : gmap N bbdata) : Prop :=
  ∀ x, m' !! x = (λ d, bb_with_users d (bb_used_by d ∖ {[v]})) <$> m !! x.

(** [m'] is [m] where the use lists mention [v] exactly for the members of [us]
    ([v] itself excepted). *)
Definition moved_user (v : value) (us : list N) (m m' : gmap N vdata) : Prop :=
  ∀ x, x ≠ v → m' !! x = (λ d, with_users d
    (if decide (x ∈ us) then {[v]} ∪ v_used_by d else v_used_by d ∖ {[v]})) <$> m !! x.
Definition bb_moved_user (v : value) (us : list N) (m m' : gmap N bbdata) : Prop :=
  ∀ x, m' !! x = (λ d, bb_with_users d
    (if decide (x ∈ us) then {[v]} ∪ bb_used_by d else bb_used_by d ∖ {[v]})) <$> m !! x.
