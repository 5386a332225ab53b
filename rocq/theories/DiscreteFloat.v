(** The coordinates and radii that python/lsst/skymap/discreteSkyMap.py computes for the tracts of a DiscreteSkyMap, in IEEE
    binary64 arithmetic (Maps.v has the same over exact reals).

    Simplifications: the WCS and the patches are not part of this file. *)
From Coq Require Import Reals.
From Flocq Require Import Core BinarySingleNaN.
Require Import Verif.Py Verif.Geom Verif.Float64 Verif.RingsFloat Verif.EquatFloat.
Open Scope Z_scope.

(** discreteSkyMap.py:70-76 [generateTract]: [center] (also the reference coordinate of the WCS), [radius*geom.degrees] and
    [self.config.tractOverlap*geom.degrees]; [raList], [decList], [radiusList], [tractOverlap] are the config values (degrees). *)
Definition fd_args (raList decList radiusList : list f64) (tractOverlap : f64) (index : Z) : res ((f64 * f64) * f64 * f64) :=
  ra <- py_nth raList index ;;
  dec <- py_nth decList index ;;
  center <- f_makeSpherePoint (f_rad true ra) (f_rad true dec) ;;
  radius <- py_nth radiusList index ;;
  Ok (center, f_rad true radius, f_rad true tractOverlap).
