(* Model of the three grid functions of daisy/blocks.py. *)
From Verif Require Export Geom.
Open Scope Z_scope.

(* blocks.py:357-368 *)
Definition expand_roi_to_grid (sub total read write : roi) : roi :=
  let off := csub (cadd (rbegin write) (rbegin total)) (rbegin read) in         (* 359 *)
  let b := csub (rbegin sub) off in                                             (* 361 *)
  let e := csub (rend sub) off in                                               (* 362 *)
  let b := cfloordiv b (shape write) in                                         (* 363 *)
  let e := cneg (cfloordiv (cneg e) (shape write)) in                           (* 364 *)
  let b := cadd (cmul b (shape write)) off in                                   (* 365 *)
  let e := cadd (cmul e (shape write)) off in                                   (* 366 *)
  Roi b (csub e b).

(* blocks.py:371-384 *)
Definition expand_request_roi_to_grid (req total read write : roi) : roi :=
  let off := csub (cadd (rbegin write) (rbegin total)) (rbegin read) in         (* 373 *)
  let b := csub (rbegin req) off in
  let e := csub (rend req) off in
  let b := cfloordiv b (shape write) in                                         (* 377 *)
  let e := cneg (cfloordiv (cneg e) (shape write)) in                           (* 378 *)
  let b := cmul b (shape write) in
  let e := cmul e (shape write) in
  let b := cadd (cadd b off) (csub (rbegin read) (rbegin write)) in             (* 381 *)
  let e := cadd (cadd e off) (csub (rend read) (rend write)) in                 (* 382 *)
  Roi b (csub e b).

(* blocks.py:387-396 *)
Definition expand_write_roi_to_grid (r write : roi) : roi :=
  let b := cfloordiv (rbegin r) (shape write) in                                (* 391 *)
  let e := cneg (cfloordiv (cneg (rend r)) (shape write)) in                    (* 392 *)
  Roi (cmul b (shape write)) (cmul (csub e b) (shape write)).                   (* 395 *)
