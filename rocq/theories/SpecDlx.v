(** Specification of the states of Algorithm X for box width [w], box height
    [h]: the dictionaries X reachable from the initial one by successful
    select calls and by undoing them. *)
From Verif Require Export Spec MDlx.

Inductive reachable_X (w h : Z) : xdict -> Prop :=
| reach_init : forall X,
    exact_cover (all_keys (h * w)) (build_Y h w) = Ok X -> reachable_X w h X
| reach_select : forall X r cols X1,
    reachable_X w h X -> select X (build_Y h w) r = Ok (cols, X1) -> reachable_X w h X1
| reach_undo : forall X r cols X1 X2,
    reachable_X w h X -> select X (build_Y h w) r = Ok (cols, X1) ->
    deselect X1 (build_Y h w) r cols = Ok X2 -> reachable_X w h X2.
