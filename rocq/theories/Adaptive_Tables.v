(** The tables of the embedded methods, integrators/methods.hpp, and that of Kutta1901Vσ1, as rational numbers. *)
From Coq Require Import Reals List QArith Qreals.
From Verif Require Import OneStep_Model Adaptive_Model.
Import ListNotations.
Open Scope Q_scope.

Fixpoint minus (u v : list Q) : list Q := match u, v with x :: u, y :: v => (x - y) :: minus u v | _, _ => [] end.
Record RKTable := mkRKTable { t_fsal : bool; t_lower_order : nat; t_c : list Q; t_a : list (list Q); t_bhat : list Q; t_b : list Q }.
Record RKNTable := mkRKNTable { n_fsal : bool; n_lower_order : nat; n_c : list Q; n_a : list (list Q); n_aʹ : list (list Q);
                                n_bhat : list Q; n_bhatʹ : list Q; n_b : list Q; n_bʹ : list Q }.
Definition reals : list Q -> list R := map Q2R.
Definition erk_of (m : RKTable) : EmbeddedRK :=
  mkEmbeddedRK (t_fsal m) (t_lower_order m) (reals (t_c m)) (map reals (t_a m)) (reals (t_bhat m)) (reals (t_b m)).
Definition rkn_of (m : RKNTable) : EmbeddedRKN :=
  mkEmbeddedRKN (n_fsal m) (n_lower_order m) (reals (n_c m)) (map reals (n_a m)) (map reals (n_aʹ m))
    (reals (n_bhat m)) (reals (n_bhatʹ m)) (reals (n_b m)) (reals (n_bʹ m)).

(** Lines 599-629. *)
Definition DormandPrince1986RK547FC : RKTable :=
  mkRKTable true 4
    [0; (1 # 5); (3 # 10); (6 # 13); (2 # 3); 1; 1]
    [[];
     [(1 # 5)];
     [(3 # 40); (9 # 40)];
     [(264 # 2197); (-90 # 2197); (840 # 2197)];
     [(932 # 3645); (-14 # 27); (3256 # 5103); (7436 # 25515)];
     [(-367 # 513); (30 # 19); (9940 # 5643); (-29575 # 8208); (6615 # 3344)];
     [(35 # 432); 0; (8500 # 14553); (-28561 # 84672); (405 # 704); (19 # 196)]]
    [(35 # 432); 0; (8500 # 14553); (-28561 # 84672); (405 # 704); (19 # 196); 0]
    [(11 # 108); 0; (6250 # 14553); (-2197 # 21168); (81 # 176); (171 # 1960); (1 # 40)].
(** Lines 574-597. *)
Definition DormandElMikkawyPrince1986RKN434FM : RKNTable :=
  mkRKNTable true 3
    [0; (1 # 4); (7 # 10); 1]
    [[];
     [(1 # 32)];
     [(7 # 1000); (119 # 500)];
     [(1 # 14); (8 # 27); (25 # 189)]]
    []
    [(1 # 14); (8 # 27); (25 # 189); 0]
    [(1 # 14); (32 # 81); (250 # 567); (5 # 54)]
    [(-7 # 150); (67 # 150); (3 # 20); (-1 # 20)]
    [(13 # 21); (-20 # 27); (275 # 189); (-1 # 3)].
(** Lines 543-570. *)
Definition Fine1987RKNG34 : RKNTable :=
  mkRKNTable false 3
    [0; (2 # 9); (1 # 3); (3 # 4); 1]
    [[];
     [(2 # 81)];
     [(1 # 36); (1 # 36)];
     [(9 # 128); 0; (27 # 128)];
     [(11 # 60); (-3 # 20); (9 # 25); (8 # 75)]]
    [[];
     [(2 # 9)];
     [(1 # 12); (1 # 4)];
     [(69 # 128); (-234 # 128); (135 # 64)];
     [(-17 # 12); (27 # 4); (-27 # 5); (16 # 15)]]
    [(19 # 180); 0; (63 # 200); (16 # 225); (1 # 120)]
    [(1 # 9); 0; (9 # 20); (16 # 45); (1 # 12)]
    (minus [(19 # 180); 0; (63 # 200); (16 # 225); (1 # 120)] [(25 # 1116); 0; (-63 # 1240); (64 # 1395); (-13 # 744)])
    (minus [(1 # 9); 0; (9 # 20); (16 # 45); (1 # 12)] [(2 # 125); 0; (-27 # 625); (32 # 625); (-3 # 125)]).
(** Lines 443-540. *)
Definition Fine1987RKNG45 : RKNTable :=
  mkRKNTable true 4
    [0; (8 # 39); (4 # 13); (5 # 6); (43 # 47); 1; 1]
    [[];
     [(32 # 1521)];
     [(4 # 169); (4 # 169)];
     [(175 # 5184); (0 # 1); (1625 # 5184)];
     [(-342497279 # 5618900760); (6827067 # 46824173); (35048741 # 102161832); (-2201514 # 234120865)];
     [(-7079 # 52152); (767 # 2173); (14027 # 52152); (30 # 2173); (0 # 1)];
     [(4817 # 51600); (0 # 1); (388869 # 1216880); (3276 # 23575); (-1142053 # 22015140); (0 # 1)]]
    [[];
     [(8 # 39)];
     [(1 # 13); (3 # 13)];
     [(7385 # 6912); (-9425 # 2304); (13325 # 3456)];
     [(223324757 # 91364240); (-174255393 # 18272848); (382840094 # 46824173); (-39627252 # 234120865)];
     [(108475 # 36464); (-9633 # 848); (7624604 # 806183); (8100 # 49979); (-4568212 # 19446707)];
     [(4817 # 51600); (0 # 1); (1685099 # 3650640); (19656 # 23575); (-53676491 # 88060560); (53 # 240)]]
    [(4817 # 51600); (0 # 1); (388869 # 1216880); (3276 # 23575); (-1142053 # 22015140); (0 # 1); (0 # 1)]
    [(4817 # 51600); (0 # 1); (1685099 # 3650640); (19656 # 23575); (-53676491 # 88060560); (53 # 240); (0 # 1)]
    (minus [(4817 # 51600); (0 # 1); (388869 # 1216880); (3276 # 23575); (-1142053 # 22015140); (0 # 1); (0 # 1)] [(8151 # 2633750); (0 # 1); (-1377519 # 186334750); (586872 # 28879375); (-36011118 # 2247378875); (0 # 1); (0 # 1)])
    (minus [(4817 # 51600); (0 # 1); (1685099 # 3650640); (19656 # 23575); (-53676491 # 88060560); (53 # 240); (0 # 1)] [(8151 # 2633750); (0 # 1); (-5969249 # 559004250); (3521232 # 28879375); (-846261273 # 4494757750); (4187 # 36750); (-1 # 25)]).
(** Lines 632-648; it is not embedded, [t_bhat] and [t_b] are both [b]. *)
Definition KuttaTable : RKTable :=
  mkRKTable false 4
    [0; (1 # 2); (1 # 2); 1]
    [[];
     [(1 # 2)];
     [0; (1 # 2)];
     [0; 0; 1]]
    [(1 # 6); (1 # 3); (1 # 3); (1 # 6)]
    [(1 # 6); (1 # 3); (1 # 3); (1 # 6)].
