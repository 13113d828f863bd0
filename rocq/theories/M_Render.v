(** Model of SamplerRenderer.render (renderer/renderer.py:84-111): run the one task over the whole sampler, deposit every
    sample on the film, then read the image. *)
From Coq Require Import Reals List Bool ZArith.
From Verif Require Import Base M_Geometry M_Sampler M_Film M_Renderer.
Import ListNotations.
Open Scope R_scope.

(** renderer.py:195-198 (film.add_sample for every sample, in order).  The film model stores real numbers: None when a
    radiance value is not finite (not modelled). *)
Definition finite3 (L : V3 E) : option vec :=
  match L with mkV (Fin a) (Fin b) (Fin c) => Some (mkV a b c) | _ => None end.
Fixpoint deposit_all (f : film) (adds : list (sample * V3 E)) : option (res film) :=
  match adds with
  | [] => Some (Ok f)
  | (s, L) :: l =>
      match finite3 L with
      | None => None
      | Some v => match add_sample f (imageX s) (imageY s) v with
                  | Err x => Some (Err x)
                  | Ok g => deposit_all g l
                  end
      end
  end.
(** renderer.py:84-111.  The integrators' preprocess methods (integrator/integrator.py:26-27) do nothing; [orig] is the
    Sample object with the integrators' requests (C64); the commented-out multi-task code is not modelled; the image is
    the array handed to write_image with splat scale [sc]. *)
Definition render {W} (cam : sample -> W -> res (R * raydiff * W)) (hitp : raydiff -> W -> res (bool * W))
    (li : raydiff -> sample -> W -> res (V3 E * W)) (s : sampler) (orig : sample) (rn : nat -> rnd) (w : W) (fuel : nat)
    (f : film) (sc : R) : option (res (list (list vec))) :=
  match task cam hitp li false s orig rn w fuel with
  | None => None
  | Some (Err x) => Some (Err x)
  | Some (Ok adds) =>
      match deposit_all f adds with
      | None => None
      | Some (Err x) => Some (Err x)
      | Some (Ok g) => Some (Ok (film_rgb g sc))
      end
  end.
