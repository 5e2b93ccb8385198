(** Vocabulary for CMTF_ALS objects that are fitted again (C100). *)
From Verif Require Export CMTF ConstrainedSpec.
Set Implicit Arguments.
Unset Strict Implicit.
Local Open Scope R_scope.

(** Constraint lists: [given] to the constructor, [now] in the object.  Nothing given can have become "no" for each of N modes. *)
Definition filled_in (N : nat) (given now : option (list bool)) : Prop :=
  now = given \/ given = None /\ now = Some (repeat false N).

(** The constraint lists of a decomposer *)
Definition nn_list (ds : dstate cmtf_state) : option (list bool) := cp_nn (cm_cp (ds_num ds)).
Definition orth_list (ds : dstate cmtf_state) : option (list bool) := cp_orth (cm_cp (ds_num ds)).

(** The same data and the same result, the tensor part and the coupled part *)
Record same_result (s s' : cmtf_state) : Prop :=
  { sr_X : cp_X (cm_cp s) = cp_X (cm_cp s');
    sr_dec : cm_dec s = cm_dec s';
    sr_Y : cm_Y s = cm_Y s';
    sr_modes : cm_modes s = cm_modes s';
    sr_V : cm_V s = cm_V s' }.

(** From ds to d by any number of fits, completed or not, that leave N factors, continued fits, and changes of the loggers, the file
    and the counters by the caller *)
Inductive earlier_uses (env : cp_env) (cs : cp_settings) (N : nat) (ds : dstate cmtf_state) : dstate cmtf_state -> Prop :=
| not_used : earlier_uses env cs N ds ds
| used_to_fit : forall d d' cf disk draws vdraws X Y modes max_its arg e, earlier_uses env cs N ds d ->
    cmtf_fit env cs cf disk draws vdraws X Y modes max_its arg d = (d', e) -> length (cm_fms (ds_num d')) = N -> earlier_uses env cs N ds d'
| used_to_continue : forall d d' cf max_its e, earlier_uses env cs N ds d ->
    cmtf_continue_fit env cs cf max_its d = (d', e) -> earlier_uses env cs N ds d'
| attributes_set : forall d d', earlier_uses env cs N ds d -> ds_num d' = ds_num d -> earlier_uses env cs N ds d'.
