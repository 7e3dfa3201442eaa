(* Picture.v -- the part of the plane that a figure shows (Visualizer._set_limits, get_canvas, show). *)
From stdpp Require Import base list.
From Verif Require Import Arith Geom Monad State Visual.

Section Picture.
Context (A : Arith).
(* the calls made when a figure is handed out: canvas.set_ylim, canvas.set_xlim, plt.show(block=...) *)
Inductive display : Type := DYlim (lo hi : D A) | DXlim (lo hi : D A) | DShow (block : bool).
(* visualization/visualizer.py:91-94 _set_limits *)
Definition set_limits (cv : canvas A) : list display := [DYlim (cv_min_y A cv) (cv_max_y A cv); DXlim (cv_min_x A cv) (cv_max_x A cv)].
(* visualization/visualizer.py:96-105 get_canvas; the figure returned is the list of calls made so far *)
Definition get_canvas (cv : canvas A) : list display := set_limits cv.
(* visualization/visualizer.py:107-128 show; other keyword arguments are passed on and not modelled *)
Definition show (cv : canvas A) (block : bool) : list display := set_limits cv ++ [DShow block].
End Picture.
