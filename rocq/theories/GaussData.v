(* GENERATED by tools/gen_gauss.py from src/integ/gauss.rs: do not edit.
   The tables of integration points (r, s, t, weight).  A number z stands for z / 2^62: these are
   the exact binary64 values of the expressions in the source, which are repeated as comments. *)
From Coq Require Import ZArith List.
Import ListNotations.
Local Open Scope Z_scope.

(* src/integ/gauss.rs:317-319 *)
Definition ip_lin_legendre_1 : list (Z * Z * Z * Z) := [
  (0, 0, 0, 9223372036854775808) (* 0.0, 0.0, 0.0, 2.0 *)].

(* src/integ/gauss.rs:323-326 *)
Definition ip_lin_legendre_2 : list (Z * Z * Z * Z) := [
  (-2662558164157085696, 0, 0, 4611686018427387904); (* -0.5773502691896257, 0.0, 0.0, 1.0 *)
  (2662558164157085696, 0, 0, 4611686018427387904) (* 0.5773502691896257, 0.0, 0.0, 1.0 *)].

(* src/integ/gauss.rs:330-334 *)
Definition ip_lin_legendre_3 : list (Z * Z * Z * Z) := [
  (-3572196629461372928, 0, 0, 2562047788015215616); (* -0.7745966692414834, 0.0, 0.0, 0.5555555555555556 *)
  (0, 0, 0, 4099276460824344576); (* 0.0000000000000000, 0.0, 0.0, 0.8888888888888888 *)
  (3572196629461372928, 0, 0, 2562047788015215616) (* 0.7745966692414834, 0.0, 0.0, 0.5555555555555556 *)].

(* src/integ/gauss.rs:338-343 *)
Definition ip_lin_legendre_4 : list (Z * Z * Z * Z) := [
  (-3971290288138422784, 0, 0, 1604197325762619904); (* -0.8611363115940526, 0.0, 0.0, 0.3478548451374538 *)
  (-1567885825230633728, 0, 0, 3007488692664768000); (* -0.3399810435848562, 0.0, 0.0, 0.6521451548625462 *)
  (1567885825230633728, 0, 0, 3007488692664768000); (* 0.3399810435848562, 0.0, 0.0, 0.6521451548625462 *)
  (3971290288138422784, 0, 0, 1604197325762619904) (* 0.8611363115940526, 0.0, 0.0, 0.3478548451374538 *)].

(* src/integ/gauss.rs:347-353 *)
Definition ip_lin_legendre_5 : list (Z * Z * Z * Z) := [
  (-4179016925696020992, 0, 0, 1092632403203180160); (* -0.9061798459386640, 0.0, 0.0, 0.2369268850561891 *)
  (-2483251388766620160, 0, 0, 2207285147760417792); (* -0.5384693101056831, 0.0, 0.0, 0.4786286704993665 *)
  (0, 0, 0, 2623536934927580672); (* 0.0000000000000000, 0.0, 0.0, 0.5688888888888889 *)
  (2483251388766620160, 0, 0, 2207285147760417792); (* 0.5384693101056831, 0.0, 0.0, 0.4786286704993665 *)
  (4179016925696020992, 0, 0, 1092632403203180160) (* 0.9061798459386640, 0.0, 0.0, 0.2369268850561891 *)].

(* src/integ/gauss.rs:361-363 *)
Definition ip_tri_internal_1 : list (Z * Z * Z * Z) := [
  (1537228672809129216, 1537228672809129216, 0, 2305843009213693952) (* 1.0 / 3.0, 1.0 / 3.0, 0.0, 1.0 / 2.0 *)].

(* src/integ/gauss.rs:367-371 *)
Definition ip_tri_internal_3 : list (Z * Z * Z * Z) := [
  (768614336404564608, 768614336404564608, 0, 768614336404564608); (* 1.0 / 6.0, 1.0 / 6.0, 0.0, 1.0 / 6.0 *)
  (3074457345618258432, 768614336404564608, 0, 768614336404564608); (* 2.0 / 3.0, 1.0 / 6.0, 0.0, 1.0 / 6.0 *)
  (768614336404564608, 3074457345618258432, 0, 768614336404564608) (* 1.0 / 6.0, 2.0 / 3.0, 0.0, 1.0 / 6.0 *)].

(* src/integ/gauss.rs:375-380 *)
Definition ip_tri_internal_4 : list (Z * Z * Z * Z) := [
  (1537228672809129216, 1537228672809129216, 0, -1297036692682702848); (* 1.0 / 3.0, 1.0 / 3.0, 0.0, -27.0 / 96.0 *)
  (922337203685477632, 922337203685477632, 0, 1200959900632132352); (* 1.0 / 5.0, 1.0 / 5.0, 0.0, 25.0 / 96.0 *)
  (2767011611056432640, 922337203685477632, 0, 1200959900632132352); (* 3.0 / 5.0, 1.0 / 5.0, 0.0, 25.0 / 96.0 *)
  (922337203685477632, 2767011611056432640, 0, 1200959900632132352) (* 1.0 / 5.0, 3.0 / 5.0, 0.0, 25.0 / 96.0 *)].

(* src/integ/gauss.rs:384-391 *)
Definition ip_tri_felippa_6 : list (Z * Z * Z * Z) := [
  (2056574420495948288, 2056574420495948288, 0, 515082876946084608); (* 0.44594849091596488632, 0.44594849091596488632, 0.0, 0.11169079483900573285 *)
  (498537177435491392, 2056574420495948288, 0, 515082876946084608); (* 0.10810301816807022736, 0.44594849091596488632, 0.0, 0.11169079483900573285 *)
  (2056574420495948288, 498537177435491392, 0, 515082876946084608); (* 0.44594849091596488632, 0.10810301816807022736, 0.0, 0.11169079483900573285 *)
  (422320743463531008, 422320743463531008, 0, 253531459458480064); (* 0.091576213509770743460, 0.091576213509770743460, 0.0, 0.054975871827660933819 *)
  (3767044531500325888, 422320743463531008, 0, 253531459458480064); (* 0.81684757298045851308, 0.091576213509770743460, 0.0, 0.054975871827660933819 *)
  (422320743463531008, 3767044531500325888, 0, 253531459458480064) (* 0.091576213509770743460, 0.81684757298045851308, 0.0, 0.054975871827660933819 *)].

(* src/integ/gauss.rs:395-403 *)
Definition ip_tri_felippa_7 : list (Z * Z * Z * Z) := [
  (467101569678926848, 467101569678926848, 0, 290395979045390912); (* 0.10128650732345633880, 0.10128650732345633880, 0.0, 0.062969590272413576298 *)
  (3677482879069534208, 467101569678926848, 0, 290395979045390912); (* 0.79742698535308732240, 0.10128650732345633880, 0.0, 0.062969590272413576298 *)
  (467101569678926848, 3677482879069534208, 0, 290395979045390912); (* 0.10128650732345633880, 0.79742698535308732240, 0.0, 0.062969590272413576298 *)
  (2168147583708152064, 2168147583708152064, 0, 305280131668146688); (* 0.47014206410511508977, 0.47014206410511508977, 0.0, 0.066197076394253090369 *)
  (275390851011083968, 2168147583708152064, 0, 305280131668146688); (* 0.059715871789769820459, 0.47014206410511508977, 0.0, 0.066197076394253090369 *)
  (2168147583708152064, 275390851011083968, 0, 305280131668146688); (* 0.47014206410511508977, 0.059715871789769820459, 0.0, 0.066197076394253090369 *)
  (1537228672809129216, 1537228672809129216, 0, 518814677073081152) (* 0.33333333333333333333, 0.33333333333333333333, 0.0, 0.11250000000000000000 *)].

(* src/integ/gauss.rs:407-420 *)
Definition ip_tri_internal_12 : list (Z * Z * Z * Z) := [
  (4029792566333742592, 290946726046822656, 0, 117240371907866624); (* 0.873821971016996, 0.063089014491502, 0.0, 0.0254224531851035 *)
  (290946726046822656, 4029792566333742592, 0, 117240371907866624); (* 0.063089014491502, 0.873821971016996, 0.0, 0.0254224531851035 *)
  (290946726046822656, 290946726046822656, 0, 117240371907866624); (* 0.063089014491502, 0.063089014491502, 0.0, 0.0254224531851035 *)
  (2312421623859469824, 1149632197283956864, 0, 269290817455773920); (* 0.501426509658179, 0.249286745170910, 0.0, 0.0583931378631895 *)
  (1149632197283956864, 2312421623859469824, 0, 269290817455773920); (* 0.249286745170910, 0.501426509658179, 0.0, 0.0583931378631895 *)
  (1149632197283956864, 1149632197283956864, 0, 269290817455773920); (* 0.249286745170910, 0.249286745170910, 0.0, 0.0583931378631895 *)
  (245088283317969184, 1431248059217172224, 0, 191041573520462816); (* 0.053145049844817, 0.310352451033784, 0.0, 0.041425537809187 *)
  (1431248059217172224, 245088283317969184, 0, 191041573520462816); (* 0.310352451033784, 0.053145049844817, 0.0, 0.041425537809187 *)
  (245088283317969184, 2935349675892241920, 0, 191041573520462816); (* 0.053145049844817, 0.636502499121398, 0.0, 0.041425537809187 *)
  (1431248059217172224, 2935349675892241920, 0, 191041573520462816); (* 0.310352451033784, 0.636502499121398, 0.0, 0.041425537809187 *)
  (2935349675892241920, 245088283317969184, 0, 191041573520462816); (* 0.636502499121398, 0.053145049844817, 0.0, 0.041425537809187 *)
  (2935349675892241920, 1431248059217172224, 0, 191041573520462816) (* 0.636502499121398, 0.310352451033784, 0.0, 0.041425537809187 *)].

(* src/integ/gauss.rs:424-441 *)
Definition ip_tri_internal_16 : list (Z * Z * Z * Z) := [
  (1537228672809127680, 1537228672809127680, 0, 332769135084251264); (* 3.33333333333333e-01, 3.33333333333333e-01, 0.0, 7.21578038388935e-02 *)
  (375459602833633408, 2118113207796877312, 0, 219266380109924448); (* 8.14148234145540e-02, 4.59292588292723e-01, 0.0, 4.75458171336425e-02 *)
  (2118113207796877312, 375459602833633408, 0, 219266380109924448); (* 4.59292588292723e-01, 8.14148234145540e-02, 0.0, 4.75458171336425e-02 *)
  (2118113207796877312, 2118113207796877312, 0, 219266380109924448); (* 4.59292588292723e-01, 4.59292588292723e-01, 0.0, 4.75458171336425e-02 *)
  (3038461834964128256, 786612091731629824, 0, 238003052276899008); (* 6.58861384496480e-01, 1.70569307751760e-01, 0.0, 5.16086852673590e-02 *)
  (786612091731629824, 3038461834964128256, 0, 238003052276899008); (* 1.70569307751760e-01, 6.58861384496480e-01, 0.0, 5.16086852673590e-02 *)
  (786612091731629824, 786612091731629824, 0, 238003052276899008); (* 1.70569307751760e-01, 1.70569307751760e-01, 0.0, 5.16086852673590e-02 *)
  (4145470126227570176, 233107946099908800, 0, 74844199834030416); (* 8.98905543365938e-01, 5.05472283170310e-02, 0.0, 1.62292488115990e-02 *)
  (233107946099908800, 4145470126227570176, 0, 74844199834030416); (* 5.05472283170310e-02, 8.98905543365938e-01, 0.0, 1.62292488115990e-02 *)
  (233107946099908800, 233107946099908800, 0, 74844199834030416); (* 5.05472283170310e-02, 5.05472283170310e-02, 0.0, 1.62292488115990e-02 *)
  (38714077609313392, 1213393757694927360, 0, 62788829577813504); (* 8.39477740995800e-03, 2.63112829634638e-01, 0.0, 1.36151570872175e-02 *)
  (3359578183123147264, 38714077609313392, 0, 62788829577813504); (* 7.28492392955404e-01, 8.39477740995800e-03, 0.0, 1.36151570872175e-02 *)
  (1213393757694927360, 3359578183123147264, 0, 62788829577813504); (* 2.63112829634638e-01, 7.28492392955404e-01, 0.0, 1.36151570872175e-02 *)
  (38714077609313392, 3359578183123147264, 0, 62788829577813504); (* 8.39477740995800e-03, 7.28492392955404e-01, 0.0, 1.36151570872175e-02 *)
  (3359578183123147264, 1213393757694927360, 0, 62788829577813504); (* 7.28492392955404e-01, 2.63112829634638e-01, 0.0, 1.36151570872175e-02 *)
  (1213393757694927360, 38714077609313392, 0, 62788829577813504) (* 2.63112829634638e-01, 8.39477740995800e-03, 0.0, 1.36151570872175e-02 *)].

(* src/integ/gauss.rs:449-451 *)
Definition ip_qua_legendre_1 : list (Z * Z * Z * Z) := [
  (0, 0, 0, 18446744073709551616) (* 0.0, 0.0, 0.0, 4.0 *)].

(* src/integ/gauss.rs:455-460 *)
Definition ip_qua_legendre_4 : list (Z * Z * Z * Z) := [
  (-2662558164157085696, -2662558164157085696, 0, 4611686018427387904); (* -0.5773502691896257, -0.5773502691896257, 0.0, 1.0 *)
  (2662558164157085696, -2662558164157085696, 0, 4611686018427387904); (* 0.5773502691896257, -0.5773502691896257, 0.0, 1.0 *)
  (-2662558164157085696, 2662558164157085696, 0, 4611686018427387904); (* -0.5773502691896257, 0.5773502691896257, 0.0, 1.0 *)
  (2662558164157085696, 2662558164157085696, 0, 4611686018427387904) (* 0.5773502691896257, 0.5773502691896257, 0.0, 1.0 *)].

(* src/integ/gauss.rs:464-474 *)
Definition ip_qua_legendre_9 : list (Z * Z * Z * Z) := [
  (-3572196629461372928, -3572196629461372928, 0, 1423359882230675200); (* -0.7745966692414834, -0.7745966692414834, 0.0, 25.0 / 81.0 *)
  (0, -3572196629461372928, 0, 2277375811569080320); (* 0.0000000000000000, -0.7745966692414834, 0.0, 40.0 / 81.0 *)
  (3572196629461372928, -3572196629461372928, 0, 1423359882230675200); (* 0.7745966692414834, -0.7745966692414834, 0.0, 25.0 / 81.0 *)
  (-3572196629461372928, 0, 0, 2277375811569080320); (* -0.7745966692414834, 0.0000000000000000, 0.0, 40.0 / 81.0 *)
  (0, 0, 0, 3643801298510528512); (* 0.0000000000000000, 0.0000000000000000, 0.0, 64.0 / 81.0 *)
  (3572196629461372928, 0, 0, 2277375811569080320); (* 0.7745966692414834, 0.0000000000000000, 0.0, 40.0 / 81.0 *)
  (-3572196629461372928, 3572196629461372928, 0, 1423359882230675200); (* -0.7745966692414834, 0.7745966692414834, 0.0, 25.0 / 81.0 *)
  (0, 3572196629461372928, 0, 2277375811569080320); (* 0.0000000000000000, 0.7745966692414834, 0.0, 40.0 / 81.0 *)
  (3572196629461372928, 3572196629461372928, 0, 1423359882230675200) (* 0.7745966692414834, 0.7745966692414834, 0.0, 25.0 / 81.0 *)].

(* src/integ/gauss.rs:478-495 *)
Definition ip_qua_legendre_16 : list (Z * Z * Z * Z) := [
  (-3971290288138422784, -3971290288138422784, 0, 558027812323073408); (* -0.8611363115940526, -0.8611363115940526, 0.0, 0.1210029932856019 *)
  (-1567885825230634240, -3971290288138422784, 0, 1046169513439546496); (* -0.3399810435848563, -0.8611363115940526, 0.0, 0.2268518518518519 *)
  (1567885825230634240, -3971290288138422784, 0, 1046169513439546496); (* 0.3399810435848563, -0.8611363115940526, 0.0, 0.2268518518518519 *)
  (3971290288138422784, -3971290288138422784, 0, 558027812323073408); (* 0.8611363115940526, -0.8611363115940526, 0.0, 0.1210029932856019 *)
  (-3971290288138422784, -1567885825230634240, 0, 1046169513439546496); (* -0.8611363115940526, -0.3399810435848563, 0.0, 0.2268518518518519 *)
  (-1567885825230634240, -1567885825230634240, 0, 1961319179225223168); (* -0.3399810435848563, -0.3399810435848563, 0.0, 0.4252933030106947 *)
  (1567885825230634240, -1567885825230634240, 0, 1961319179225223168); (* 0.3399810435848563, -0.3399810435848563, 0.0, 0.4252933030106947 *)
  (3971290288138422784, -1567885825230634240, 0, 1046169513439546496); (* 0.8611363115940526, -0.3399810435848563, 0.0, 0.2268518518518519 *)
  (-3971290288138422784, 1567885825230634240, 0, 1046169513439546496); (* -0.8611363115940526, 0.3399810435848563, 0.0, 0.2268518518518519 *)
  (-1567885825230634240, 1567885825230634240, 0, 1961319179225223168); (* -0.3399810435848563, 0.3399810435848563, 0.0, 0.4252933030106947 *)
  (1567885825230634240, 1567885825230634240, 0, 1961319179225223168); (* 0.3399810435848563, 0.3399810435848563, 0.0, 0.4252933030106947 *)
  (3971290288138422784, 1567885825230634240, 0, 1046169513439546496); (* 0.8611363115940526, 0.3399810435848563, 0.0, 0.2268518518518519 *)
  (-3971290288138422784, 3971290288138422784, 0, 558027812323073408); (* -0.8611363115940526, 0.8611363115940526, 0.0, 0.1210029932856019 *)
  (-1567885825230634240, 3971290288138422784, 0, 1046169513439546496); (* -0.3399810435848563, 0.8611363115940526, 0.0, 0.2268518518518519 *)
  (1567885825230634240, 3971290288138422784, 0, 1046169513439546496); (* 0.3399810435848563, 0.8611363115940526, 0.0, 0.2268518518518519 *)
  (3971290288138422784, 3971290288138422784, 0, 558027812323073408) (* 0.8611363115940526, 0.8611363115940526, 0.0, 0.1210029932856019 *)].

(* src/integ/gauss.rs:506-508 *)
Definition ip_tet_internal_1 : list (Z * Z * Z * Z) := [
  (1152921504606846976, 1152921504606846976, 1152921504606846976, 768614336404564608) (* 1.0 / 4.0, 1.0 / 4.0, 1.0 / 4.0, 1.0 / 6.0 *)].

(* src/integ/gauss.rs:515-520 *)
Definition ip_tet_internal_4 : list (Z * Z * Z * Z) := [
  (637319333202397568, 637319333202397568, 637319333202397568, 192153584101141152); (* 0.13819660112501051518, 0.13819660112501051518, 0.13819660112501051518, 0.041666666666666666667 *)
  (2699728018820194816, 637319333202397568, 637319333202397568, 192153584101141152); (* 0.58541019662496845446, 0.13819660112501051518, 0.13819660112501051518, 0.041666666666666666667 *)
  (637319333202397568, 2699728018820194816, 637319333202397568, 192153584101141152); (* 0.13819660112501051518, 0.58541019662496845446, 0.13819660112501051518, 0.041666666666666666667 *)
  (637319333202397568, 637319333202397568, 2699728018820194816, 192153584101141152) (* 0.13819660112501051518, 0.13819660112501051518, 0.58541019662496845446, 0.041666666666666666667 *)].

(* src/integ/gauss.rs:527-533 *)
Definition ip_tet_internal_5 : list (Z * Z * Z * Z) := [
  (1152921504606846976, 1152921504606846976, 1152921504606846976, -614891469123651712); (* 1.0 / 4.0, 1.0 / 4.0, 1.0 / 4.0, -2.0 / 15.0 *)
  (768614336404564608, 768614336404564608, 768614336404564608, 345876451382054080); (* 1.0 / 6.0, 1.0 / 6.0, 1.0 / 6.0, 3.0 / 40.0 *)
  (768614336404564608, 768614336404564608, 2305843009213693952, 345876451382054080); (* 1.0 / 6.0, 1.0 / 6.0, 1.0 / 2.0, 3.0 / 40.0 *)
  (768614336404564608, 2305843009213693952, 768614336404564608, 345876451382054080); (* 1.0 / 6.0, 1.0 / 2.0, 1.0 / 6.0, 3.0 / 40.0 *)
  (2305843009213693952, 768614336404564608, 768614336404564608, 345876451382054080) (* 1.0 / 2.0, 1.0 / 6.0, 1.0 / 6.0, 3.0 / 40.0 *)].

(* src/integ/gauss.rs:540-549 *)
Definition ip_tet_felippa_8 : list (Z * Z * Z * Z) := [
  (1512885258103523584, 1512885258103523584, 1512885258103523584, 106474581053988672); (* 0.32805469671142664734, 0.32805469671142664734, 0.32805469671142664734, 0.023087994418643690387 *)
  (73030244116817520, 1512885258103523584, 1512885258103523584, 106474581053988672); (* 0.015835909865720057993, 0.32805469671142664734, 0.32805469671142664734, 0.023087994418643690387 *)
  (1512885258103523584, 73030244116817520, 1512885258103523584, 106474581053988672); (* 0.32805469671142664734, 0.015835909865720057993, 0.32805469671142664734, 0.023087994418643690387 *)
  (1512885258103523584, 1512885258103523584, 73030244116817520, 106474581053988672); (* 0.32805469671142664734, 0.32805469671142664734, 0.015835909865720057993, 0.023087994418643690387 *)
  (493230306335512384, 493230306335512384, 493230306335512384, 85679003047152480); (* 0.10695227393293068277, 0.10695227393293068277, 0.10695227393293068277, 0.018578672248022976279 *)
  (3131995099420850688, 493230306335512384, 493230306335512384, 85679003047152480); (* 0.67914317820120795168, 0.10695227393293068277, 0.10695227393293068277, 0.018578672248022976279 *)
  (493230306335512384, 3131995099420850688, 493230306335512384, 85679003047152480); (* 0.10695227393293068277, 0.67914317820120795168, 0.10695227393293068277, 0.018578672248022976279 *)
  (493230306335512384, 493230306335512384, 3131995099420850688, 85679003047152480) (* 0.10695227393293068277, 0.10695227393293068277, 0.67914317820120795168, 0.018578672248022976279 *)].

(* src/integ/gauss.rs:556-571 *)
Definition ip_tet_felippa_14 : list (Z * Z * Z * Z) := [
  (427665857274101120, 427665857274101120, 427665857274101120, 56487806565234600); (* 0.092735250310891226402, 0.092735250310891226402, 0.092735250310891226402, 0.012248840519393658257 *)
  (3328688446605084672, 427665857274101120, 427665857274101120, 56487806565234600); (* 0.72179424906732632079, 0.092735250310891226402, 0.092735250310891226402, 0.012248840519393658257 *)
  (427665857274101120, 3328688446605084672, 427665857274101120, 56487806565234600); (* 0.092735250310891226402, 0.72179424906732632079, 0.092735250310891226402, 0.012248840519393658257 *)
  (427665857274101120, 427665857274101120, 3328688446605084672, 56487806565234600); (* 0.092735250310891226402, 0.092735250310891226402, 0.72179424906732632079, 0.012248840519393658257 *)
  (1433708247192509184, 1433708247192509184, 1433708247192509184, 86613555246559632); (* 0.31088591926330060980, 0.31088591926330060980, 0.31088591926330060980, 0.018781320953002641800 *)
  (310561276849860416, 1433708247192509184, 1433708247192509184, 86613555246559632); (* 0.067342242210098170608, 0.31088591926330060980, 0.31088591926330060980, 0.018781320953002641800 *)
  (1433708247192509184, 310561276849860416, 1433708247192509184, 86613555246559632); (* 0.31088591926330060980, 0.067342242210098170608, 0.31088591926330060980, 0.018781320953002641800 *)
  (1433708247192509184, 1433708247192509184, 310561276849860416, 86613555246559632); (* 0.31088591926330060980, 0.31088591926330060980, 0.067342242210098170608, 0.018781320953002641800 *)
  (209848796102915136, 2095994213110778880, 2095994213110778880, 32701481526231292); (* 0.045503704125649649492, 0.45449629587435035051, 0.45449629587435035051, 0.0070910034628469110730 *)
  (2095994213110778880, 209848796102915136, 2095994213110778880, 32701481526231292); (* 0.45449629587435035051, 0.045503704125649649492, 0.45449629587435035051, 0.0070910034628469110730 *)
  (2095994213110778880, 2095994213110778880, 209848796102915136, 32701481526231292); (* 0.45449629587435035051, 0.45449629587435035051, 0.045503704125649649492, 0.0070910034628469110730 *)
  (209848796102915136, 209848796102915136, 2095994213110778880, 32701481526231292); (* 0.045503704125649649492, 0.045503704125649649492, 0.45449629587435035051, 0.0070910034628469110730 *)
  (209848796102915136, 2095994213110778880, 209848796102915136, 32701481526231292); (* 0.045503704125649649492, 0.45449629587435035051, 0.045503704125649649492, 0.0070910034628469110730 *)
  (2095994213110778880, 209848796102915136, 209848796102915136, 32701481526231292) (* 0.45449629587435035051, 0.045503704125649649492, 0.045503704125649649492, 0.0070910034628469110730 *)].

(* src/integ/gauss.rs:578-594 *)
Definition ip_tet_felippa_15 : list (Z * Z * Z * Z) := [
  (424141734755436800, 424141734755436800, 424141734755436800, 55291873911689968); (* 0.091971078052723032789, 0.091971078052723032789, 0.091971078052723032789, 0.011989513963169770002 *)
  (3339260814161077248, 424141734755436800, 424141734755436800, 55291873911689968); (* 0.72408676584183090163, 0.091971078052723032789, 0.091971078052723032789, 0.011989513963169770002 *)
  (424141734755436800, 3339260814161077248, 424141734755436800, 55291873911689968); (* 0.091971078052723032789, 0.72408676584183090163, 0.091971078052723032789, 0.011989513963169770002 *)
  (424141734755436800, 424141734755436800, 3339260814161077248, 55291873911689968); (* 0.091971078052723032789, 0.091971078052723032789, 0.72408676584183090163, 0.011989513963169770002 *)
  (1474787802244075776, 1474787802244075776, 1474787802244075776, 53086814263874304); (* 0.31979362782962990839, 0.31979362782962990839, 0.31979362782962990839, 0.011511367871045397547 *)
  (187322611695160320, 1474787802244075776, 1474787802244075776, 53086814263874304); (* 0.040619116511110274837, 0.31979362782962990839, 0.31979362782962990839, 0.011511367871045397547 *)
  (1474787802244075776, 187322611695160320, 1474787802244075776, 53086814263874304); (* 0.31979362782962990839, 0.040619116511110274837, 0.31979362782962990839, 0.011511367871045397547 *)
  (1474787802244075776, 1474787802244075776, 187322611695160320, 53086814263874304); (* 0.31979362782962990839, 0.31979362782962990839, 0.040619116511110274837, 0.011511367871045397547 *)
  (2045970661972190208, 259872347241503776, 259872347241503776, 40667425206590720); (* 0.44364916731037084426, 0.056350832689629155741, 0.056350832689629155741, 0.0088183421516754850088 *)
  (259872347241503776, 2045970661972190208, 259872347241503776, 40667425206590720); (* 0.056350832689629155741, 0.44364916731037084426, 0.056350832689629155741, 0.0088183421516754850088 *)
  (259872347241503776, 259872347241503776, 2045970661972190208, 40667425206590720); (* 0.056350832689629155741, 0.056350832689629155741, 0.44364916731037084426, 0.0088183421516754850088 *)
  (2045970661972190208, 2045970661972190208, 259872347241503776, 40667425206590720); (* 0.44364916731037084426, 0.44364916731037084426, 0.056350832689629155741, 0.0088183421516754850088 *)
  (2045970661972190208, 259872347241503776, 2045970661972190208, 40667425206590720); (* 0.44364916731037084426, 0.056350832689629155741, 0.44364916731037084426, 0.0088183421516754850088 *)
  (259872347241503776, 2045970661972190208, 2045970661972190208, 40667425206590720); (* 0.056350832689629155741, 0.44364916731037084426, 0.44364916731037084426, 0.0088183421516754850088 *)
  (1152921504606846976, 1152921504606846976, 1152921504606846976, 91095032462763216) (* 0.25000000000000000000, 0.25000000000000000000, 0.25000000000000000000, 0.019753086419753086420 *)].

(* src/integ/gauss.rs:601-626 *)
Definition ip_tet_felippa_24 : list (Z * Z * Z * Z) := [
  (989681060900204160, 989681060900204160, 989681060900204160, 30685198197126568); (* 0.21460287125915202929, 0.21460287125915202929, 0.21460287125915202929, 0.0066537917096945820166 *)
  (1642642835726775552, 989681060900204160, 989681060900204160, 30685198197126568); (* 0.35619138622254391213, 0.21460287125915202929, 0.21460287125915202929, 0.0066537917096945820166 *)
  (989681060900204160, 1642642835726775552, 989681060900204160, 30685198197126568); (* 0.21460287125915202929, 0.35619138622254391213, 0.21460287125915202929, 0.0066537917096945820166 *)
  (989681060900204160, 989681060900204160, 1642642835726775552, 30685198197126568); (* 0.21460287125915202929, 0.21460287125915202929, 0.35619138622254391213, 0.0066537917096945820166 *)
  (187575525888162496, 187575525888162496, 187575525888162496, 7745488888094019); (* 0.040673958534611353116, 0.040673958534611353116, 0.040673958534611353116, 0.0016795351758867738247 *)
  (4048959440762900480, 187575525888162496, 187575525888162496, 7745488888094019); (* 0.87797812439616594065, 0.040673958534611353116, 0.040673958534611353116, 0.0016795351758867738247 *)
  (187575525888162496, 4048959440762900480, 187575525888162496, 7745488888094019); (* 0.040673958534611353116, 0.87797812439616594065, 0.040673958534611353116, 0.0016795351758867738247 *)
  (187575525888162496, 187575525888162496, 4048959440762900480, 7745488888094019); (* 0.040673958534611353116, 0.040673958534611353116, 0.87797812439616594065, 0.0016795351758867738247 *)
  (1486521141178515200, 1486521141178515200, 1486521141178515200, 42548323357403192); (* 0.32233789014227551034, 0.32233789014227551034, 0.32233789014227551034, 0.0092261969239424536825 *)
  (152122594891841952, 1486521141178515200, 1486521141178515200, 42548323357403192); (* 0.032986329573173468968, 0.32233789014227551034, 0.32233789014227551034, 0.0092261969239424536825 *)
  (1486521141178515200, 152122594891841952, 1486521141178515200, 42548323357403192); (* 0.32233789014227551034, 0.032986329573173468968, 0.32233789014227551034, 0.0092261969239424536825 *)
  (1486521141178515200, 1486521141178515200, 152122594891841952, 42548323357403192); (* 0.32233789014227551034, 0.32233789014227551034, 0.032986329573173468968, 0.0092261969239424536825 *)
  (1243644120543031296, 293584552266098048, 293584552266098048, 37058191219505792); (* 0.26967233145831580803, 0.063661001875017525299, 0.063661001875017525299, 0.0080357142857142857143 *)
  (293584552266098048, 1243644120543031296, 293584552266098048, 37058191219505792); (* 0.063661001875017525299, 0.26967233145831580803, 0.063661001875017525299, 0.0080357142857142857143 *)
  (293584552266098048, 293584552266098048, 1243644120543031296, 37058191219505792); (* 0.063661001875017525299, 0.063661001875017525299, 0.26967233145831580803, 0.0080357142857142857143 *)
  (2780872793352160768, 1243644120543031296, 293584552266098048, 37058191219505792); (* 0.60300566479164914137, 0.26967233145831580803, 0.063661001875017525299, 0.0080357142857142857143 *)
  (2780872793352160768, 293584552266098048, 1243644120543031296, 37058191219505792); (* 0.60300566479164914137, 0.063661001875017525299, 0.26967233145831580803, 0.0080357142857142857143 *)
  (293584552266098048, 2780872793352160768, 1243644120543031296, 37058191219505792); (* 0.063661001875017525299, 0.60300566479164914137, 0.26967233145831580803, 0.0080357142857142857143 *)
  (2780872793352160768, 293584552266098048, 293584552266098048, 37058191219505792); (* 0.60300566479164914137, 0.063661001875017525299, 0.063661001875017525299, 0.0080357142857142857143 *)
  (293584552266098048, 2780872793352160768, 293584552266098048, 37058191219505792); (* 0.063661001875017525299, 0.60300566479164914137, 0.063661001875017525299, 0.0080357142857142857143 *)
  (293584552266098048, 293584552266098048, 2780872793352160768, 37058191219505792); (* 0.063661001875017525299, 0.063661001875017525299, 0.60300566479164914137, 0.0080357142857142857143 *)
  (1243644120543031296, 2780872793352160768, 293584552266098048, 37058191219505792); (* 0.26967233145831580803, 0.60300566479164914137, 0.063661001875017525299, 0.0080357142857142857143 *)
  (1243644120543031296, 293584552266098048, 2780872793352160768, 37058191219505792); (* 0.26967233145831580803, 0.063661001875017525299, 0.60300566479164914137, 0.0080357142857142857143 *)
  (293584552266098048, 1243644120543031296, 2780872793352160768, 37058191219505792) (* 0.063661001875017525299, 0.26967233145831580803, 0.60300566479164914137, 0.0080357142857142857143 *)].

(* src/integ/gauss.rs:634-641 *)
Definition ip_hex_irons_6 : list (Z * Z * Z * Z) := [
  (-4611686018427387904, 0, 0, 6148914691236516864); (* -1.0, 0.0, 0.0, 4.0 / 3.0 *)
  (4611686018427387904, 0, 0, 6148914691236516864); (* 1.0, 0.0, 0.0, 4.0 / 3.0 *)
  (0, -4611686018427387904, 0, 6148914691236516864); (* 0.0, -1.0, 0.0, 4.0 / 3.0 *)
  (0, 4611686018427387904, 0, 6148914691236516864); (* 0.0, 1.0, 0.0, 4.0 / 3.0 *)
  (0, 0, -4611686018427387904, 6148914691236516864); (* 0.0, 0.0, -1.0, 4.0 / 3.0 *)
  (0, 0, 4611686018427387904, 6148914691236516864) (* 0.0, 0.0, 1.0, 4.0 / 3.0 *)].

(* src/integ/gauss.rs:645-654 *)
Definition ip_hex_legendre_8 : list (Z * Z * Z * Z) := [
  (-2662558164157085696, -2662558164157085696, -2662558164157085696, 4611686018427387904); (* -0.5773502691896257, -0.5773502691896257, -0.5773502691896257, 1.0 *)
  (2662558164157085696, -2662558164157085696, -2662558164157085696, 4611686018427387904); (* 0.5773502691896257, -0.5773502691896257, -0.5773502691896257, 1.0 *)
  (-2662558164157085696, 2662558164157085696, -2662558164157085696, 4611686018427387904); (* -0.5773502691896257, 0.5773502691896257, -0.5773502691896257, 1.0 *)
  (2662558164157085696, 2662558164157085696, -2662558164157085696, 4611686018427387904); (* 0.5773502691896257, 0.5773502691896257, -0.5773502691896257, 1.0 *)
  (-2662558164157085696, -2662558164157085696, 2662558164157085696, 4611686018427387904); (* -0.5773502691896257, -0.5773502691896257, 0.5773502691896257, 1.0 *)
  (2662558164157085696, -2662558164157085696, 2662558164157085696, 4611686018427387904); (* 0.5773502691896257, -0.5773502691896257, 0.5773502691896257, 1.0 *)
  (-2662558164157085696, 2662558164157085696, 2662558164157085696, 4611686018427387904); (* -0.5773502691896257, 0.5773502691896257, 0.5773502691896257, 1.0 *)
  (2662558164157085696, 2662558164157085696, 2662558164157085696, 4611686018427387904) (* 0.5773502691896257, 0.5773502691896257, 0.5773502691896257, 1.0 *)].

(* src/integ/gauss.rs:658-673 *)
Definition ip_hex_irons_14 : list (Z * Z * Z * Z) := [
  (3670083154001711104, 0, 0, 4087921124367767552); (* 0.7958224257542215, 0.0000000000000000, 0.0000000000000000, 0.8864265927977839 *)
  (-3670083154001711104, 0, 0, 4087921124367767552); (* -0.7958224257542215, 0.0000000000000000, 0.0000000000000000, 0.8864265927977839 *)
  (0, 3670083154001711104, 0, 4087921124367767552); (* 0.0000000000000000, 0.7958224257542215, 0.0000000000000000, 0.8864265927977839 *)
  (0, -3670083154001711104, 0, 4087921124367767552); (* 0.0000000000000000, -0.7958224257542215, 0.0000000000000000, 0.8864265927977839 *)
  (0, 0, 3670083154001711104, 4087921124367767552); (* 0.0000000000000000, 0.0000000000000000, 0.7958224257542215, 0.8864265927977839 *)
  (0, 0, -3670083154001711104, 4087921124367767552); (* 0.0000000000000000, 0.0000000000000000, -0.7958224257542215, 0.8864265927977839 *)
  (3499286986761101312, 3499286986761101312, 3499286986761101312, 1545745175151562496); (* 0.7587869106393281, 0.7587869106393281, 0.7587869106393281, 0.3351800554016621 *)
  (-3499286986761101312, 3499286986761101312, 3499286986761101312, 1545745175151562496); (* -0.7587869106393281, 0.7587869106393281, 0.7587869106393281, 0.3351800554016621 *)
  (3499286986761101312, -3499286986761101312, 3499286986761101312, 1545745175151562496); (* 0.7587869106393281, -0.7587869106393281, 0.7587869106393281, 0.3351800554016621 *)
  (-3499286986761101312, -3499286986761101312, 3499286986761101312, 1545745175151562496); (* -0.7587869106393281, -0.7587869106393281, 0.7587869106393281, 0.3351800554016621 *)
  (3499286986761101312, 3499286986761101312, -3499286986761101312, 1545745175151562496); (* 0.7587869106393281, 0.7587869106393281, -0.7587869106393281, 0.3351800554016621 *)
  (-3499286986761101312, 3499286986761101312, -3499286986761101312, 1545745175151562496); (* -0.7587869106393281, 0.7587869106393281, -0.7587869106393281, 0.3351800554016621 *)
  (3499286986761101312, -3499286986761101312, -3499286986761101312, 1545745175151562496); (* 0.7587869106393281, -0.7587869106393281, -0.7587869106393281, 0.3351800554016621 *)
  (-3499286986761101312, -3499286986761101312, -3499286986761101312, 1545745175151562496) (* -0.7587869106393281, -0.7587869106393281, -0.7587869106393281, 0.3351800554016621 *)].

(* src/integ/gauss.rs:677-705 *)
Definition ip_hex_legendre_27 : list (Z * Z * Z * Z) := [
  (-3572196629461370880, -3572196629461370880, -3572196629461370880, 790755490128154496); (* -0.774596669241483, -0.774596669241483, -0.774596669241483, 0.171467764060357 *)
  (0, -3572196629461370880, -3572196629461370880, 1265208784205046272); (* 0.000000000000000, -0.774596669241483, -0.774596669241483, 0.274348422496571 *)
  (3572196629461370880, -3572196629461370880, -3572196629461370880, 790755490128154496); (* 0.774596669241483, -0.774596669241483, -0.774596669241483, 0.171467764060357 *)
  (-3572196629461370880, 0, -3572196629461370880, 1265208784205046272); (* -0.774596669241483, 0.000000000000000, -0.774596669241483, 0.274348422496571 *)
  (0, 0, -3572196629461370880, 2024334054728071424); (* 0.000000000000000, 0.000000000000000, -0.774596669241483, 0.438957475994513 *)
  (3572196629461370880, 0, -3572196629461370880, 1265208784205046272); (* 0.774596669241483, 0.000000000000000, -0.774596669241483, 0.274348422496571 *)
  (-3572196629461370880, 3572196629461370880, -3572196629461370880, 790755490128154496); (* -0.774596669241483, 0.774596669241483, -0.774596669241483, 0.171467764060357 *)
  (0, 3572196629461370880, -3572196629461370880, 1265208784205046272); (* 0.000000000000000, 0.774596669241483, -0.774596669241483, 0.274348422496571 *)
  (3572196629461370880, 3572196629461370880, -3572196629461370880, 790755490128154496); (* 0.774596669241483, 0.774596669241483, -0.774596669241483, 0.171467764060357 *)
  (-3572196629461370880, -3572196629461370880, 0, 1265208784205046272); (* -0.774596669241483, -0.774596669241483, 0.000000000000000, 0.274348422496571 *)
  (0, -3572196629461370880, 0, 2024334054728071424); (* 0.000000000000000, -0.774596669241483, 0.000000000000000, 0.438957475994513 *)
  (3572196629461370880, -3572196629461370880, 0, 1265208784205046272); (* 0.774596669241483, -0.774596669241483, 0.000000000000000, 0.274348422496571 *)
  (-3572196629461370880, 0, 0, 2024334054728071424); (* -0.774596669241483, 0.000000000000000, 0.000000000000000, 0.438957475994513 *)
  (0, 0, 0, 3238934487564915200); (* 0.000000000000000, 0.000000000000000, 0.000000000000000, 0.702331961591221 *)
  (3572196629461370880, 0, 0, 2024334054728071424); (* 0.774596669241483, 0.000000000000000, 0.000000000000000, 0.438957475994513 *)
  (-3572196629461370880, 3572196629461370880, 0, 1265208784205046272); (* -0.774596669241483, 0.774596669241483, 0.000000000000000, 0.274348422496571 *)
  (0, 3572196629461370880, 0, 2024334054728071424); (* 0.000000000000000, 0.774596669241483, 0.000000000000000, 0.438957475994513 *)
  (3572196629461370880, 3572196629461370880, 0, 1265208784205046272); (* 0.774596669241483, 0.774596669241483, 0.000000000000000, 0.274348422496571 *)
  (-3572196629461370880, -3572196629461370880, 3572196629461370880, 790755490128154496); (* -0.774596669241483, -0.774596669241483, 0.774596669241483, 0.171467764060357 *)
  (0, -3572196629461370880, 3572196629461370880, 1265208784205046272); (* 0.000000000000000, -0.774596669241483, 0.774596669241483, 0.274348422496571 *)
  (3572196629461370880, -3572196629461370880, 3572196629461370880, 790755490128154496); (* 0.774596669241483, -0.774596669241483, 0.774596669241483, 0.171467764060357 *)
  (-3572196629461370880, 0, 3572196629461370880, 1265208784205046272); (* -0.774596669241483, 0.000000000000000, 0.774596669241483, 0.274348422496571 *)
  (0, 0, 3572196629461370880, 2024334054728071424); (* 0.000000000000000, 0.000000000000000, 0.774596669241483, 0.438957475994513 *)
  (3572196629461370880, 0, 3572196629461370880, 1265208784205046272); (* 0.774596669241483, 0.000000000000000, 0.774596669241483, 0.274348422496571 *)
  (-3572196629461370880, 3572196629461370880, 3572196629461370880, 790755490128154496); (* -0.774596669241483, 0.774596669241483, 0.774596669241483, 0.171467764060357 *)
  (0, 3572196629461370880, 3572196629461370880, 1265208784205046272); (* 0.000000000000000, 0.774596669241483, 0.774596669241483, 0.274348422496571 *)
  (3572196629461370880, 3572196629461370880, 3572196629461370880, 790755490128154496) (* 0.774596669241483, 0.774596669241483, 0.774596669241483, 0.171467764060357 *)].

(* src/integ/gauss.rs:709-774 *)
Definition ip_hex_legendre_64 : list (Z * Z * Z * Z) := [
  (-3971290288138422784, -3971290288138422784, -3971290288138422784, 194112678238035040); (* -0.86113631159405257522, -0.86113631159405257522, -0.86113631159405257522, 0.04209147749053145454 *)
  (-1567885825230633984, -3971290288138422784, -3971290288138422784, 363915134085038848); (* -0.33998104358485626480, -0.86113631159405257522, -0.86113631159405257522, 0.07891151579507055098 *)
  (1567885825230633984, -3971290288138422784, -3971290288138422784, 363915134085038848); (* 0.33998104358485626480, -0.86113631159405257522, -0.86113631159405257522, 0.07891151579507055098 *)
  (3971290288138422784, -3971290288138422784, -3971290288138422784, 194112678238035040); (* 0.86113631159405257522, -0.86113631159405257522, -0.86113631159405257522, 0.04209147749053145454 *)
  (-3971290288138422784, -1567885825230633984, -3971290288138422784, 363915134085038848); (* -0.86113631159405257522, -0.33998104358485626480, -0.86113631159405257522, 0.07891151579507055098 *)
  (-1567885825230633984, -1567885825230633984, -3971290288138422784, 682254379354507520); (* -0.33998104358485626480, -0.33998104358485626480, -0.86113631159405257522, 0.14794033605678130087 *)
  (1567885825230633984, -1567885825230633984, -3971290288138422784, 682254379354507520); (* 0.33998104358485626480, -0.33998104358485626480, -0.86113631159405257522, 0.14794033605678130087 *)
  (3971290288138422784, -1567885825230633984, -3971290288138422784, 363915134085038848); (* 0.86113631159405257522, -0.33998104358485626480, -0.86113631159405257522, 0.07891151579507055098 *)
  (-3971290288138422784, 1567885825230633984, -3971290288138422784, 363915134085038848); (* -0.86113631159405257522, 0.33998104358485626480, -0.86113631159405257522, 0.07891151579507055098 *)
  (-1567885825230633984, 1567885825230633984, -3971290288138422784, 682254379354507520); (* -0.33998104358485626480, 0.33998104358485626480, -0.86113631159405257522, 0.14794033605678130087 *)
  (1567885825230633984, 1567885825230633984, -3971290288138422784, 682254379354507520); (* 0.33998104358485626480, 0.33998104358485626480, -0.86113631159405257522, 0.14794033605678130087 *)
  (3971290288138422784, 1567885825230633984, -3971290288138422784, 363915134085038848); (* 0.86113631159405257522, 0.33998104358485626480, -0.86113631159405257522, 0.07891151579507055098 *)
  (-3971290288138422784, 3971290288138422784, -3971290288138422784, 194112678238035040); (* -0.86113631159405257522, 0.86113631159405257522, -0.86113631159405257522, 0.04209147749053145454 *)
  (-1567885825230633984, 3971290288138422784, -3971290288138422784, 363915134085038848); (* -0.33998104358485626480, 0.86113631159405257522, -0.86113631159405257522, 0.07891151579507055098 *)
  (1567885825230633984, 3971290288138422784, -3971290288138422784, 363915134085038848); (* 0.33998104358485626480, 0.86113631159405257522, -0.86113631159405257522, 0.07891151579507055098 *)
  (3971290288138422784, 3971290288138422784, -3971290288138422784, 194112678238035040); (* 0.86113631159405257522, 0.86113631159405257522, -0.86113631159405257522, 0.04209147749053145454 *)
  (-3971290288138422784, -3971290288138422784, -1567885825230633984, 363915134085038848); (* -0.86113631159405257522, -0.86113631159405257522, -0.33998104358485626480, 0.07891151579507055098 *)
  (-1567885825230633984, -3971290288138422784, -1567885825230633984, 682254379354507520); (* -0.33998104358485626480, -0.86113631159405257522, -0.33998104358485626480, 0.14794033605678130087 *)
  (1567885825230633984, -3971290288138422784, -1567885825230633984, 682254379354507520); (* 0.33998104358485626480, -0.86113631159405257522, -0.33998104358485626480, 0.14794033605678130087 *)
  (3971290288138422784, -3971290288138422784, -1567885825230633984, 363915134085038848); (* 0.86113631159405257522, -0.86113631159405257522, -0.33998104358485626480, 0.07891151579507055098 *)
  (-3971290288138422784, -1567885825230633984, -1567885825230633984, 682254379354507520); (* -0.86113631159405257522, -0.33998104358485626480, -0.33998104358485626480, 0.14794033605678130087 *)
  (-1567885825230633984, -1567885825230633984, -1567885825230633984, 1279064799870713856); (* -0.33998104358485626480, -0.33998104358485626480, -0.33998104358485626480, 0.27735296695391298990 *)
  (1567885825230633984, -1567885825230633984, -1567885825230633984, 1279064799870713856); (* 0.33998104358485626480, -0.33998104358485626480, -0.33998104358485626480, 0.27735296695391298990 *)
  (3971290288138422784, -1567885825230633984, -1567885825230633984, 682254379354507520); (* 0.86113631159405257522, -0.33998104358485626480, -0.33998104358485626480, 0.14794033605678130087 *)
  (-3971290288138422784, 1567885825230633984, -1567885825230633984, 682254379354507520); (* -0.86113631159405257522, 0.33998104358485626480, -0.33998104358485626480, 0.14794033605678130087 *)
  (-1567885825230633984, 1567885825230633984, -1567885825230633984, 1279064799870713856); (* -0.33998104358485626480, 0.33998104358485626480, -0.33998104358485626480, 0.27735296695391298990 *)
  (1567885825230633984, 1567885825230633984, -1567885825230633984, 1279064799870713856); (* 0.33998104358485626480, 0.33998104358485626480, -0.33998104358485626480, 0.27735296695391298990 *)
  (3971290288138422784, 1567885825230633984, -1567885825230633984, 682254379354507520); (* 0.86113631159405257522, 0.33998104358485626480, -0.33998104358485626480, 0.14794033605678130087 *)
  (-3971290288138422784, 3971290288138422784, -1567885825230633984, 363915134085038848); (* -0.86113631159405257522, 0.86113631159405257522, -0.33998104358485626480, 0.07891151579507055098 *)
  (-1567885825230633984, 3971290288138422784, -1567885825230633984, 682254379354507520); (* -0.33998104358485626480, 0.86113631159405257522, -0.33998104358485626480, 0.14794033605678130087 *)
  (1567885825230633984, 3971290288138422784, -1567885825230633984, 682254379354507520); (* 0.33998104358485626480, 0.86113631159405257522, -0.33998104358485626480, 0.14794033605678130087 *)
  (3971290288138422784, 3971290288138422784, -1567885825230633984, 363915134085038848); (* 0.86113631159405257522, 0.86113631159405257522, -0.33998104358485626480, 0.07891151579507055098 *)
  (-3971290288138422784, -3971290288138422784, 1567885825230633984, 363915134085038848); (* -0.86113631159405257522, -0.86113631159405257522, 0.33998104358485626480, 0.07891151579507055098 *)
  (-1567885825230633984, -3971290288138422784, 1567885825230633984, 682254379354507520); (* -0.33998104358485626480, -0.86113631159405257522, 0.33998104358485626480, 0.14794033605678130087 *)
  (1567885825230633984, -3971290288138422784, 1567885825230633984, 682254379354507520); (* 0.33998104358485626480, -0.86113631159405257522, 0.33998104358485626480, 0.14794033605678130087 *)
  (3971290288138422784, -3971290288138422784, 1567885825230633984, 363915134085038848); (* 0.86113631159405257522, -0.86113631159405257522, 0.33998104358485626480, 0.07891151579507055098 *)
  (-3971290288138422784, -1567885825230633984, 1567885825230633984, 682254379354507520); (* -0.86113631159405257522, -0.33998104358485626480, 0.33998104358485626480, 0.14794033605678130087 *)
  (-1567885825230633984, -1567885825230633984, 1567885825230633984, 1279064799870713856); (* -0.33998104358485626480, -0.33998104358485626480, 0.33998104358485626480, 0.27735296695391298990 *)
  (1567885825230633984, -1567885825230633984, 1567885825230633984, 1279064799870713856); (* 0.33998104358485626480, -0.33998104358485626480, 0.33998104358485626480, 0.27735296695391298990 *)
  (3971290288138422784, -1567885825230633984, 1567885825230633984, 682254379354507520); (* 0.86113631159405257522, -0.33998104358485626480, 0.33998104358485626480, 0.14794033605678130087 *)
  (-3971290288138422784, 1567885825230633984, 1567885825230633984, 682254379354507520); (* -0.86113631159405257522, 0.33998104358485626480, 0.33998104358485626480, 0.14794033605678130087 *)
  (-1567885825230633984, 1567885825230633984, 1567885825230633984, 1279064799870713856); (* -0.33998104358485626480, 0.33998104358485626480, 0.33998104358485626480, 0.27735296695391298990 *)
  (1567885825230633984, 1567885825230633984, 1567885825230633984, 1279064799870713856); (* 0.33998104358485626480, 0.33998104358485626480, 0.33998104358485626480, 0.27735296695391298990 *)
  (3971290288138422784, 1567885825230633984, 1567885825230633984, 682254379354507520); (* 0.86113631159405257522, 0.33998104358485626480, 0.33998104358485626480, 0.14794033605678130087 *)
  (-3971290288138422784, 3971290288138422784, 1567885825230633984, 363915134085038848); (* -0.86113631159405257522, 0.86113631159405257522, 0.33998104358485626480, 0.07891151579507055098 *)
  (-1567885825230633984, 3971290288138422784, 1567885825230633984, 682254379354507520); (* -0.33998104358485626480, 0.86113631159405257522, 0.33998104358485626480, 0.14794033605678130087 *)
  (1567885825230633984, 3971290288138422784, 1567885825230633984, 682254379354507520); (* 0.33998104358485626480, 0.86113631159405257522, 0.33998104358485626480, 0.14794033605678130087 *)
  (3971290288138422784, 3971290288138422784, 1567885825230633984, 363915134085038848); (* 0.86113631159405257522, 0.86113631159405257522, 0.33998104358485626480, 0.07891151579507055098 *)
  (-3971290288138422784, -3971290288138422784, 3971290288138422784, 194112678238035040); (* -0.86113631159405257522, -0.86113631159405257522, 0.86113631159405257522, 0.04209147749053145454 *)
  (-1567885825230633984, -3971290288138422784, 3971290288138422784, 363915134085038848); (* -0.33998104358485626480, -0.86113631159405257522, 0.86113631159405257522, 0.07891151579507055098 *)
  (1567885825230633984, -3971290288138422784, 3971290288138422784, 363915134085038848); (* 0.33998104358485626480, -0.86113631159405257522, 0.86113631159405257522, 0.07891151579507055098 *)
  (3971290288138422784, -3971290288138422784, 3971290288138422784, 194112678238035040); (* 0.86113631159405257522, -0.86113631159405257522, 0.86113631159405257522, 0.04209147749053145454 *)
  (-3971290288138422784, -1567885825230633984, 3971290288138422784, 363915134085038848); (* -0.86113631159405257522, -0.33998104358485626480, 0.86113631159405257522, 0.07891151579507055098 *)
  (-1567885825230633984, -1567885825230633984, 3971290288138422784, 682254379354507520); (* -0.33998104358485626480, -0.33998104358485626480, 0.86113631159405257522, 0.14794033605678130087 *)
  (1567885825230633984, -1567885825230633984, 3971290288138422784, 682254379354507520); (* 0.33998104358485626480, -0.33998104358485626480, 0.86113631159405257522, 0.14794033605678130087 *)
  (3971290288138422784, -1567885825230633984, 3971290288138422784, 363915134085038848); (* 0.86113631159405257522, -0.33998104358485626480, 0.86113631159405257522, 0.07891151579507055098 *)
  (-3971290288138422784, 1567885825230633984, 3971290288138422784, 363915134085038848); (* -0.86113631159405257522, 0.33998104358485626480, 0.86113631159405257522, 0.07891151579507055098 *)
  (-1567885825230633984, 1567885825230633984, 3971290288138422784, 682254379354507520); (* -0.33998104358485626480, 0.33998104358485626480, 0.86113631159405257522, 0.14794033605678130087 *)
  (1567885825230633984, 1567885825230633984, 3971290288138422784, 682254379354507520); (* 0.33998104358485626480, 0.33998104358485626480, 0.86113631159405257522, 0.14794033605678130087 *)
  (3971290288138422784, 1567885825230633984, 3971290288138422784, 363915134085038848); (* 0.86113631159405257522, 0.33998104358485626480, 0.86113631159405257522, 0.07891151579507055098 *)
  (-3971290288138422784, 3971290288138422784, 3971290288138422784, 194112678238035040); (* -0.86113631159405257522, 0.86113631159405257522, 0.86113631159405257522, 0.04209147749053145454 *)
  (-1567885825230633984, 3971290288138422784, 3971290288138422784, 363915134085038848); (* -0.33998104358485626480, 0.86113631159405257522, 0.86113631159405257522, 0.07891151579507055098 *)
  (1567885825230633984, 3971290288138422784, 3971290288138422784, 363915134085038848); (* 0.33998104358485626480, 0.86113631159405257522, 0.86113631159405257522, 0.07891151579507055098 *)
  (3971290288138422784, 3971290288138422784, 3971290288138422784, 194112678238035040) (* 0.86113631159405257522, 0.86113631159405257522, 0.86113631159405257522, 0.04209147749053145454 *)].
