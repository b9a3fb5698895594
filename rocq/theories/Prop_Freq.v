(** C95: how natural frequencies compare between beams and meshes. *)
From Coquelicot Require Import Coquelicot.
From Verif Require Import Base SectionModel BeamModel ModalModel ModalSpec FreqSpec FreqFacts5.
Open Scope R_scope.

(** Every beam that can vibrate has frequencies a correct eigenvalue routine would report... *)
Theorem C95_exist : forall b mass nseg EIs Ls ms, vibrating b mass nseg EIs Ls ms ->
  exists eigh, eigh_sound eigh /\ forall n_modes, exists r, solve_modal eigh b mass n_modes nseg = Ok r.
Proof. exact modes_exist. Qed.
Print Assumptions C95_exist.
(** ...and every correct routine reports the same. *)
Theorem C95_solver : forall b mass nseg EIs Ls ms, vibrating b mass nseg EIs Ls ms ->
  forall eigh eigh', eigh_sound eigh -> eigh_sound eigh' -> forall n_modes n_modes' r r',
  solve_modal eigh b mass n_modes nseg = Ok r -> solve_modal eigh' b mass n_modes' nseg = Ok r' ->
  forall j, (j < length (mo_omega r))%nat -> (j < length (mo_omega r'))%nat -> nth j (mo_omega r) 0 = nth j (mo_omega r') 0.
Proof. exact same_frequencies. Qed.
Print Assumptions C95_solver.

(** A stiffer, lighter or better supported beam has no lower frequency. *)
Theorem C95_stiffer : forall b b' mass mass' nseg EIs EIs' Ls Ls' ms ms',
  vibrating b mass nseg EIs Ls ms -> vibrating b' mass' nseg EIs' Ls' ms' -> stiffer b b' EIs EIs' Ls Ls' ms ms' ->
  forall eigh eigh', eigh_sound eigh -> eigh_sound eigh' -> forall n_modes n_modes' r r',
  solve_modal eigh b mass n_modes nseg = Ok r -> solve_modal eigh' b' mass' n_modes' nseg = Ok r' ->
  forall j, (j < length (mo_omega r))%nat -> (j < length (mo_omega r'))%nat -> nth j (mo_omega r) 0 <= nth j (mo_omega r') 0.
Proof. exact stiffer_frequencies. Qed.
Print Assumptions C95_stiffer.

(** Further rigid supports raise frequencies, none beyond as many modes higher. *)
Theorem C95_interlaced : forall extra b b' mass mass' nseg EIs EIs' Ls Ls' ms ms',
  vibrating b mass nseg EIs Ls ms -> vibrating b' mass' nseg EIs' Ls' ms' -> held_at extra b b' EIs EIs' Ls Ls' ms ms' ->
  forall eigh eigh', eigh_sound eigh -> eigh_sound eigh' -> forall n_modes n_modes' r r',
  solve_modal eigh b mass n_modes nseg = Ok r -> solve_modal eigh' b' mass' n_modes' nseg = Ok r' ->
  forall j, (j < length (mo_omega r'))%nat -> (j + length extra < length (mo_omega r))%nat ->
  nth j (mo_omega r) 0 <= nth j (mo_omega r') 0 <= nth (j + length extra) (mo_omega r) 0.
Proof. exact held_frequencies. Qed.
Print Assumptions C95_interlaced.

(** Scaling: frequencies go with the root of rigidity over mass and the inverse square of
    length. *)
Theorem C95_similar : forall a m l b b' mass mass' nseg EIs EIs' Ls Ls' ms ms',
  vibrating b mass nseg EIs Ls ms -> vibrating b' mass' nseg EIs' Ls' ms' -> similar a m l b b' EIs EIs' Ls Ls' ms ms' ->
  forall eigh eigh', eigh_sound eigh -> eigh_sound eigh' -> forall n_modes n_modes' r r',
  solve_modal eigh b mass n_modes nseg = Ok r -> solve_modal eigh' b' mass' n_modes' nseg = Ok r' ->
  forall j, (j < length (mo_omega r))%nat -> (j < length (mo_omega r'))%nat ->
  nth j (mo_omega r') 0 = sqrt (a / m) / l ^ 2 * nth j (mo_omega r) 0.
Proof. exact similar_frequencies. Qed.
Print Assumptions C95_similar.

(** The direction in which the beam is described does not matter. *)
Theorem C95_reversed : forall b b' mass mass' nseg EIs EIs' Ls Ls' ms ms',
  vibrating b mass nseg EIs Ls ms -> vibrating b' mass' nseg EIs' Ls' ms' -> reversed b b' EIs EIs' Ls Ls' ms ms' ->
  forall eigh eigh', eigh_sound eigh -> eigh_sound eigh' -> forall n_modes n_modes' r r',
  solve_modal eigh b mass n_modes nseg = Ok r -> solve_modal eigh' b' mass' n_modes' nseg = Ok r' ->
  forall j, (j < length (mo_omega r))%nat -> (j < length (mo_omega r'))%nat -> nth j (mo_omega r') 0 = nth j (mo_omega r) 0.
Proof. exact reversed_frequencies. Qed.
Print Assumptions C95_reversed.

(** Dividing every sub-element into [c] equal parts raises no frequency. *)
Theorem C95_finer : forall b mass nseg c EIs Ls ms, vibrating b mass nseg EIs Ls ms -> (1 <= c)%nat ->
  forall eigh eigh', eigh_sound eigh -> eigh_sound eigh' -> forall n_modes n_modes' r r',
  solve_modal eigh b mass n_modes nseg = Ok r -> solve_modal eigh' b mass n_modes' (c * nseg) = Ok r' ->
  forall j, (j < length (mo_omega r))%nat -> (j < length (mo_omega r'))%nat -> nth j (mo_omega r') 0 <= nth j (mo_omega r) 0.
Proof. exact finer_frequencies. Qed.
Print Assumptions C95_finer.

(** Two spans on three supports (seven motions with two sub-elements a span) and the beams it
    is compared with; with [C95_exist] all hypotheses are met. *)
Example C95_nonvacuous :
  vibrating span2 (MList [4; 5]) 2 [10; 20] [2; 3] [4; 5] /\
  vibrating (plain [2; 3] [11; 20] [-1; 7; -1; 0; -1; -1]) (MList [3; 5]) 2 [11; 20] [2; 3] [3; 5] /\
  stiffer span2 (plain [2; 3] [11; 20] [-1; 7; -1; 0; -1; -1]) [10; 20] [11; 20] [2; 3] [2; 3] [4; 5] [3; 5] /\
  vibrating (plain [2; 3] [10; 20] [-1; 5; -1; -1; -1; 0]) (MList [4; 5]) 2 [10; 20] [2; 3] [4; 5] /\
  held_at [3%nat] span2 (plain [2; 3] [10; 20] [-1; 5; -1; -1; -1; 0]) [10; 20] [10; 20] [2; 3] [2; 3] [4; 5] [4; 5] /\
  vibrating (plain [4; 6] [30; 60] [-1; 15 / 2; -1; 0; -1; 0]) (MList [20; 25]) 2 [30; 60] [4; 6] [20; 25] /\
  similar 3 5 2 span2 (plain [4; 6] [30; 60] [-1; 15 / 2; -1; 0; -1; 0]) [10; 20] [30; 60] [2; 3] [4; 6] [4; 5] [20; 25] /\
  vibrating (plain [3; 2] [20; 10] [-1; 0; -1; 0; -1; 5]) (MList [5; 4]) 2 [20; 10] [3; 2] [5; 4] /\
  reversed span2 (plain [3; 2] [20; 10] [-1; 0; -1; 0; -1; 5]) [10; 20] [20; 10] [2; 3] [3; 2] [4; 5] [5; 4] /\
  motions span2 2 = 7%nat.
Proof. exact beams_meet. Qed.
