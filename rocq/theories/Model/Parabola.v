(** * Model of src/math/parabola.rs *)
From Coq Require Import ZArith List.
From Verif Require Import Model.Base Model.F32.
Open Scope Z_scope.

(** parabola.rs:26-34.  [compute_coefs] for samples f(0), f(1), f(2). *)
Definition compute_coefs (g0 g1 g2 : f32) : f32 * f32 * f32 :=
  let d := fsub g1 g0 in
  let e := fsub g2 g0 in
  (g0,
   fmul (fsub (fmul f4 d) e) fhalf,
   fmul (fsub e (fmul f2 d)) fhalf).

(** parabola.rs:36-39.  [eval(x)]: [c0 + (c1 + c2*x)*x]. *)
Definition parabola_eval (c : f32 * f32 * f32) (x : f32) : f32 :=
  let '(c0, c1, c2) := c in
  fadd c0 (fmul (fadd c1 (fmul c2 x)) x).
