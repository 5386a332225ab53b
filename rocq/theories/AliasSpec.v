(** The vocabulary for the aliasing property (C83). *)
From Coq Require Import Reals.
Require Import Verif.Py Verif.Geom Verif.PatchInfo Verif.TractBuilder Verif.TractInfo Verif.SkyMap Verif.Alias.
Open Scope Z_scope.

Section Alias.
Context {Sky : Type}.
Variable offset : Sky -> R -> R -> Sky.

(** The action changes in place an object that came from [o]. *)
Definition changes (w : world Sky) (a : action Sky) (o : origin) : Prop :=
  exists j v r, a = AChange j v /\ nth_error (w_given w) j = Some (o, r).

(** [w] is reached from a new sky map by any sequence of calls, and of in-place
    changes of objects from origins that [allowed] admits. *)
Inductive history (d : skydef Sky) (allowed : origin -> Prop) : world Sky -> Prop :=
| hist_new w : w_new offset d = Ok w -> history d allowed w
| hist_act w a : history d allowed w -> (forall o, changes w a o -> allowed o) ->
    history d allowed (act offset d a w).

(** Anything may be changed / anything but what [patch_inner_dimensions] returned. *)
Definition anything (o : origin) : Prop := True.
Definition but_dims (o : origin) : Prop := o <> FromPatchDims.
End Alias.
