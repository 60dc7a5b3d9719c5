(** * LogTable: the logging skeleton of every function of /repo that calls the logger.
    Generated by tools/skel.py; do not edit.  Each entry is followed by the file and lines it models. *)
From Coq Require Import String.
From Verif Require Import Base LogModel.
Local Open Scope string_scope.
Local Open Scope list_scope.

Definition functions_1 : list func := [
  F "adds_core" "src/blas/matrix/adds/dense_adds.hpp:9" [Cpu; Mkl; Mpi; Gpu] [In Func; Any; Out Func]; (* src/blas/matrix/adds/dense_adds.hpp:9-21 *)
  F "adds_row_core" "src/blas/matrix/adds/dense_adds.hpp:24" [Cpu; Mkl; Mpi] [In Func; Any; If ([Any; Throw]) ([Any]); Out Func]; (* src/blas/matrix/adds/dense_adds.hpp:24-62 *)
  F "adds_row_core" "src/blas/matrix/adds/dense_adds.hpp:24" [Gpu] [In Func; Any; Out Func]; (* src/blas/matrix/adds/dense_adds.hpp:24-62 *)
  F "adds_col_core" "src/blas/matrix/adds/dense_adds.hpp:65" [Cpu; Mkl; Mpi] [In Func; Any; If ([Any; Throw]) ([Any]); Out Func]; (* src/blas/matrix/adds/dense_adds.hpp:65-103 *)
  F "adds_col_core" "src/blas/matrix/adds/dense_adds.hpp:65" [Gpu] [In Func; Any; Out Func]; (* src/blas/matrix/adds/dense_adds.hpp:65-103 *)
  F "adds_row_core" "src/blas/matrix/adds/dense_line_adds.hpp:9" [Cpu; Mkl; Mpi] [In Func; Any; If ([Any; Throw]) ([Any]); Out Func]; (* src/blas/matrix/adds/dense_line_adds.hpp:9-43 *)
  F "adds_row_core" "src/blas/matrix/adds/dense_line_adds.hpp:9" [Gpu] [In Func; Any; Out Func]; (* src/blas/matrix/adds/dense_line_adds.hpp:9-43 *)
  F "adds_col_core" "src/blas/matrix/adds/dense_line_adds.hpp:46" [Cpu; Mkl; Mpi] [In Func; Any; If ([Any; Throw]) ([Any]); Out Func]; (* src/blas/matrix/adds/dense_line_adds.hpp:46-81 *)
  F "adds_col_core" "src/blas/matrix/adds/dense_line_adds.hpp:46" [Gpu] [In Func; Any; Out Func]; (* src/blas/matrix/adds/dense_line_adds.hpp:46-81 *)
  F "copy_core" "src/blas/matrix/copy/crs_copy.hpp:7" [Cpu; Mkl; Mpi; Gpu] [In Util; Any; Out Util]; (* src/blas/matrix/copy/crs_copy.hpp:7-20 *)
  F "copy_core" "src/blas/matrix/copy/dense_copy.hpp:7" [Cpu; Mkl; Mpi; Gpu] [In Util; Any; Out Util]; (* src/blas/matrix/copy/dense_copy.hpp:7-18 *)
  F "copy_core" "src/blas/matrix/copy/linearOperator_copy.hpp:7" [Cpu; Mkl; Mpi; Gpu] [In Util; Any; Out Util]; (* src/blas/matrix/copy/linearOperator_copy.hpp:7-25 *)
  F "CRS_diag_add_core" "src/blas/matrix/diag_op/crs_diag_op.hpp:8" [Cpu; Mkl; Mpi] [In Func; Any; If ([Any; Throw]) ([Any]); Out Func]; (* src/blas/matrix/diag_op/crs_diag_op.hpp:8-43 *)
  F "CRS_diag_add_core" "src/blas/matrix/diag_op/crs_diag_op.hpp:8" [Gpu] [In Func; Any; Out Func]; (* src/blas/matrix/diag_op/crs_diag_op.hpp:8-43 *)
  F "CRS_diag_add_core" "src/blas/matrix/diag_op/crs_diag_op.hpp:46" [Cpu; Mkl; Mpi] [In Func; Any; If ([Any; Throw]) ([Any]); Out Func]; (* src/blas/matrix/diag_op/crs_diag_op.hpp:46-84 *)
  F "CRS_diag_add_core" "src/blas/matrix/diag_op/crs_diag_op.hpp:46" [Gpu] [In Func; Any; Out Func]; (* src/blas/matrix/diag_op/crs_diag_op.hpp:46-84 *)
  F "CRS_diag_sub_core" "src/blas/matrix/diag_op/crs_diag_op.hpp:87" [Cpu; Mkl; Mpi] [In Func; Any; If ([Any; Throw]) ([Any]); Out Func]; (* src/blas/matrix/diag_op/crs_diag_op.hpp:87-122 *)
  F "CRS_diag_sub_core" "src/blas/matrix/diag_op/crs_diag_op.hpp:87" [Gpu] [In Func; Any; Out Func]; (* src/blas/matrix/diag_op/crs_diag_op.hpp:87-122 *)
  F "CRS_diag_sub_core" "src/blas/matrix/diag_op/crs_diag_op.hpp:125" [Cpu; Mkl; Mpi] [In Func; Any; If ([Any; Throw]) ([Any]); Out Func]; (* src/blas/matrix/diag_op/crs_diag_op.hpp:125-163 *)
  F "CRS_diag_sub_core" "src/blas/matrix/diag_op/crs_diag_op.hpp:125" [Gpu] [In Func; Any; Out Func]; (* src/blas/matrix/diag_op/crs_diag_op.hpp:125-163 *)
  F "CRS_diag_mul_core" "src/blas/matrix/diag_op/crs_diag_op.hpp:166" [Cpu; Mkl; Mpi] [In Func; Any; If ([Any; Throw]) ([Any]); Out Func]; (* src/blas/matrix/diag_op/crs_diag_op.hpp:166-201 *)
  F "CRS_diag_mul_core" "src/blas/matrix/diag_op/crs_diag_op.hpp:166" [Gpu] [In Func; Any; Out Func]; (* src/blas/matrix/diag_op/crs_diag_op.hpp:166-201 *)
  F "CRS_diag_mul_core" "src/blas/matrix/diag_op/crs_diag_op.hpp:204" [Cpu; Mkl; Mpi] [In Func; Any; If ([Any; Throw]) ([Any]); Out Func]; (* src/blas/matrix/diag_op/crs_diag_op.hpp:204-242 *)
  F "CRS_diag_mul_core" "src/blas/matrix/diag_op/crs_diag_op.hpp:204" [Gpu] [In Func; Any; Out Func]; (* src/blas/matrix/diag_op/crs_diag_op.hpp:204-242 *)
  F "CRS_diag_div_core" "src/blas/matrix/diag_op/crs_diag_op.hpp:245" [Cpu; Mkl; Mpi] [In Func; Any; If ([Any; Throw]) ([Any]); Out Func]; (* src/blas/matrix/diag_op/crs_diag_op.hpp:245-280 *)
  F "CRS_diag_div_core" "src/blas/matrix/diag_op/crs_diag_op.hpp:245" [Gpu] [In Func; Any; Out Func]; (* src/blas/matrix/diag_op/crs_diag_op.hpp:245-280 *)
  F "CRS_diag_div_core" "src/blas/matrix/diag_op/crs_diag_op.hpp:283" [Cpu; Mkl; Mpi] [In Func; Any; If ([Any; Throw]) ([Any]); Out Func]; (* src/blas/matrix/diag_op/crs_diag_op.hpp:283-321 *)
  F "CRS_diag_div_core" "src/blas/matrix/diag_op/crs_diag_op.hpp:283" [Gpu] [In Func; Any; Out Func]; (* src/blas/matrix/diag_op/crs_diag_op.hpp:283-321 *)
  F "Dense_diag_add_core" "src/blas/matrix/diag_op/dense_diag_op.hpp:8" [Cpu; Mkl; Mpi] [In Func; Any; If ([Any; Throw]) ([Any]); Out Func]; (* src/blas/matrix/diag_op/dense_diag_op.hpp:8-35 *)
  F "Dense_diag_add_core" "src/blas/matrix/diag_op/dense_diag_op.hpp:8" [Gpu] [In Func; Any; Out Func]; (* src/blas/matrix/diag_op/dense_diag_op.hpp:8-35 *)
  F "Dense_diag_add_core" "src/blas/matrix/diag_op/dense_diag_op.hpp:38" [Cpu; Mkl; Mpi] [In Func; Any; If ([Any; Throw]) ([Any]); Out Func]; (* src/blas/matrix/diag_op/dense_diag_op.hpp:38-67 *)
  F "Dense_diag_add_core" "src/blas/matrix/diag_op/dense_diag_op.hpp:38" [Gpu] [In Func; Any; Out Func]; (* src/blas/matrix/diag_op/dense_diag_op.hpp:38-67 *)
  F "Dense_diag_sub_core" "src/blas/matrix/diag_op/dense_diag_op.hpp:70" [Cpu; Mkl; Mpi] [In Func; Any; If ([Any; Throw]) ([Any]); Out Func]; (* src/blas/matrix/diag_op/dense_diag_op.hpp:70-97 *)
  F "Dense_diag_sub_core" "src/blas/matrix/diag_op/dense_diag_op.hpp:70" [Gpu] [In Func; Any; Out Func]; (* src/blas/matrix/diag_op/dense_diag_op.hpp:70-97 *)
  F "Dense_diag_sub_core" "src/blas/matrix/diag_op/dense_diag_op.hpp:100" [Cpu; Mkl; Mpi] [In Func; Any; If ([Any; Throw]) ([Any]); Out Func]; (* src/blas/matrix/diag_op/dense_diag_op.hpp:100-129 *)
  F "Dense_diag_sub_core" "src/blas/matrix/diag_op/dense_diag_op.hpp:100" [Gpu] [In Func; Any; Out Func]; (* src/blas/matrix/diag_op/dense_diag_op.hpp:100-129 *)
  F "Dense_diag_mul_core" "src/blas/matrix/diag_op/dense_diag_op.hpp:132" [Cpu; Mkl; Mpi] [In Func; Any; If ([Any; Throw]) ([Any]); Out Func]; (* src/blas/matrix/diag_op/dense_diag_op.hpp:132-159 *)
  F "Dense_diag_mul_core" "src/blas/matrix/diag_op/dense_diag_op.hpp:132" [Gpu] [In Func; Any; Out Func]; (* src/blas/matrix/diag_op/dense_diag_op.hpp:132-159 *)
  F "Dense_diag_mul_core" "src/blas/matrix/diag_op/dense_diag_op.hpp:162" [Cpu; Mkl; Mpi] [In Func; Any; If ([Any; Throw]) ([Any]); Out Func]; (* src/blas/matrix/diag_op/dense_diag_op.hpp:162-191 *)
  F "Dense_diag_mul_core" "src/blas/matrix/diag_op/dense_diag_op.hpp:162" [Gpu] [In Func; Any; Out Func]; (* src/blas/matrix/diag_op/dense_diag_op.hpp:162-191 *)
  F "Dense_diag_div_core" "src/blas/matrix/diag_op/dense_diag_op.hpp:194" [Cpu; Mkl; Mpi] [In Func; Any; If ([Any; Throw]) ([Any]); Out Func]; (* src/blas/matrix/diag_op/dense_diag_op.hpp:194-221 *)
  F "Dense_diag_div_core" "src/blas/matrix/diag_op/dense_diag_op.hpp:194" [Gpu] [In Func; Any; Out Func]; (* src/blas/matrix/diag_op/dense_diag_op.hpp:194-221 *)
  F "Dense_diag_div_core" "src/blas/matrix/diag_op/dense_diag_op.hpp:224" [Cpu; Mkl; Mpi] [In Func; Any; If ([Any; Throw]) ([Any]); Out Func]; (* src/blas/matrix/diag_op/dense_diag_op.hpp:224-253 *)
  F "Dense_diag_div_core" "src/blas/matrix/diag_op/dense_diag_op.hpp:224" [Gpu] [In Func; Any; Out Func]; (* src/blas/matrix/diag_op/dense_diag_op.hpp:224-253 *)
  F "matadd_core" "src/blas/matrix/mataddsub/crs_mataddsub.hpp:8" [Cpu; Mkl; Mpi; Gpu] [In Func; Any; Out Func]; (* src/blas/matrix/mataddsub/crs_mataddsub.hpp:8-23 *)
  F "matsub_core" "src/blas/matrix/mataddsub/crs_mataddsub.hpp:25" [Cpu; Mkl; Mpi; Gpu] [In Func; Any; Out Func]; (* src/blas/matrix/mataddsub/crs_mataddsub.hpp:25-40 *)
  F "matadd_core" "src/blas/matrix/mataddsub/dense_mataddsub.hpp:8" [Cpu; Mkl; Mpi; Gpu] [In Func; Any; Out Func]; (* src/blas/matrix/mataddsub/dense_mataddsub.hpp:8-21 *)
  F "matsub_core" "src/blas/matrix/mataddsub/dense_mataddsub.hpp:23" [Cpu; Mkl; Mpi; Gpu] [In Func; Any; Out Func]; (* src/blas/matrix/mataddsub/dense_mataddsub.hpp:23-36 *)
  F "matadd_core" "src/blas/matrix/mataddsub/linearoperator_mataddsub.hpp:8" [Cpu; Mkl; Mpi; Gpu] [In Func; Any; Out Func]; (* src/blas/matrix/mataddsub/linearoperator_mataddsub.hpp:8-55 *)
  F "matsub_core" "src/blas/matrix/mataddsub/linearoperator_mataddsub.hpp:57" [Cpu; Mkl; Mpi; Gpu] [In Func; Any; Out Func]; (* src/blas/matrix/mataddsub/linearoperator_mataddsub.hpp:57-104 *)
  F "CRS_Dense_Dmatmul_core" "src/blas/matrix/matmul/crs-dense_matmul.hpp:8" [Cpu; Mkl; Mpi] [In Func; Any; If ([Any; Throw]) ([Any]); Out Func]; (* src/blas/matrix/matmul/crs-dense_matmul.hpp:8-149 *)
  F "CRS_Dense_Dmatmul_core" "src/blas/matrix/matmul/crs-dense_matmul.hpp:8" [Gpu] [In Func; Any; Out Func]; (* src/blas/matrix/matmul/crs-dense_matmul.hpp:8-149 *)
  F "CRS_Dense_Smatmul_core" "src/blas/matrix/matmul/crs-dense_matmul.hpp:152" [Cpu; Mkl; Mpi] [In Func; Any; If ([Any; Throw]) ([Any]); Out Func]; (* src/blas/matrix/matmul/crs-dense_matmul.hpp:152-323 *)
  F "CRS_Dense_Smatmul_core" "src/blas/matrix/matmul/crs-dense_matmul.hpp:152" [Gpu] [In Func; Any; Out Func]; (* src/blas/matrix/matmul/crs-dense_matmul.hpp:152-323 *)
  F "CRS_Dense_Dmatmul_core" "src/blas/matrix/matmul/crs-dense_matmul_copy.hpp:137" [Cpu; Mkl; Mpi] [In Func; Any; If ([Any; Throw]) ([Any]); Out Func]; (* src/blas/matrix/matmul/crs-dense_matmul_copy.hpp:137-361 *)
  F "CRS_Dense_Dmatmul_core" "src/blas/matrix/matmul/crs-dense_matmul_copy.hpp:137" [Gpu] [In Func; Any; Out Func]; (* src/blas/matrix/matmul/crs-dense_matmul_copy.hpp:137-361 *)
  F "CRS_Dense_Smatmul_core" "src/blas/matrix/matmul/crs-dense_matmul_copy.hpp:364" [Cpu; Mkl; Mpi] [In Func; Any; If ([Any; Throw]) ([Any]); Out Func]; (* src/blas/matrix/matmul/crs-dense_matmul_copy.hpp:364-611 *)
  F "CRS_Dense_Smatmul_core" "src/blas/matrix/matmul/crs-dense_matmul_copy.hpp:364" [Gpu] [In Func; Any; Out Func]; (* src/blas/matrix/matmul/crs-dense_matmul_copy.hpp:364-611 *)
  F "Dense_Dense_Dmatmul_core" "src/blas/matrix/matmul/dense-dense_matmul.hpp:24" [Cpu; Mkl; Mpi] [In Func; Any; If ([Any; Throw]) ([Any]); Out Func]; (* src/blas/matrix/matmul/dense-dense_matmul.hpp:24-67 *)
  F "Dense_Dense_Dmatmul_core" "src/blas/matrix/matmul/dense-dense_matmul.hpp:24" [Gpu] [In Func; Any; Out Func]; (* src/blas/matrix/matmul/dense-dense_matmul.hpp:24-67 *)
  F "Dense_Dense_Smatmul_core" "src/blas/matrix/matmul/dense-dense_matmul.hpp:70" [Cpu; Mkl; Mpi] [In Func; Any; If ([Any; Throw]) ([Any]); Out Func]; (* src/blas/matrix/matmul/dense-dense_matmul.hpp:70-114 *)
  F "Dense_Dense_Smatmul_core" "src/blas/matrix/matmul/dense-dense_matmul.hpp:70" [Gpu] [In Func; Any; Out Func]; (* src/blas/matrix/matmul/dense-dense_matmul.hpp:70-114 *)
  F "matmul" "src/blas/matrix/matmul/linearoperator-dense_matmul.hpp:7" [Cpu; Mkl; Mpi; Gpu] [In Func; Any; If ([Any]) ([Any; Throw]); Out Func]; (* src/blas/matrix/matmul/linearoperator-dense_matmul.hpp:7-25 *)
  F "matmul" "src/blas/matrix/matmul/linearoperator-dense_matmul.hpp:28" [Cpu; Mkl; Mpi; Gpu] [In Func; Any; If ([Any]) ([Any; Throw]); Out Func]; (* src/blas/matrix/matmul/linearoperator-dense_matmul.hpp:28-46 *)
  F "rmatmul" "src/blas/matrix/matmul/linearoperator-dense_matmul.hpp:49" [Cpu; Mkl; Mpi; Gpu] [In Func; Any; If ([Any]) ([Any; Throw]); Out Func]; (* src/blas/matrix/matmul/linearoperator-dense_matmul.hpp:49-67 *)
  F "rmatmul" "src/blas/matrix/matmul/linearoperator-dense_matmul.hpp:70" [Cpu; Mkl; Mpi; Gpu] [In Func; Any; If ([Any]) ([Any; Throw]); Out Func]; (* src/blas/matrix/matmul/linearoperator-dense_matmul.hpp:70-88 *)
  F "matmul" "src/blas/matrix/matmul/linearoperator-linearoperator_matmul.hpp:7" [Cpu; Mkl; Mpi; Gpu] [In Func; Any; Out Func]; (* src/blas/matrix/matmul/linearoperator-linearoperator_matmul.hpp:7-52 *)
  F "matmul" "src/blas/matrix/matmul/linearoperator-linearoperator_matmul.hpp:55" [Cpu; Mkl; Mpi; Gpu] [In Func; Any; Out Func]; (* src/blas/matrix/matmul/linearoperator-linearoperator_matmul.hpp:55-100 *)
  F "Dmatvec_core" "src/blas/matrix/matvec/crs_matvec.hpp:7" [Cpu; Mkl; Mpi] [In Func; Any; If ([Any; Throw]) ([Any]); Out Func]; (* src/blas/matrix/matvec/crs_matvec.hpp:7-114 *)
  F "Dmatvec_core" "src/blas/matrix/matvec/crs_matvec.hpp:7" [Gpu] [In Func; Any; Out Func]; (* src/blas/matrix/matvec/crs_matvec.hpp:7-114 *)
  F "Smatvec_core" "src/blas/matrix/matvec/crs_matvec.hpp:117" [Cpu; Mkl; Mpi] [In Func; Any; If ([Any; Throw]) ([Any]); Out Func]; (* src/blas/matrix/matvec/crs_matvec.hpp:117-223 *)
  F "Smatvec_core" "src/blas/matrix/matvec/crs_matvec.hpp:117" [Gpu] [In Func; Any; Out Func]; (* src/blas/matrix/matvec/crs_matvec.hpp:117-223 *)
  F "Dmatvec_core" "src/blas/matrix/matvec/dense_matvec.hpp:13" [Cpu; Mkl; Mpi] [In Func; Any; If ([Any; Throw]) ([Any]); Out Func]; (* src/blas/matrix/matvec/dense_matvec.hpp:13-56 *)
  F "Dmatvec_core" "src/blas/matrix/matvec/dense_matvec.hpp:13" [Gpu] [In Func; Any; Out Func]; (* src/blas/matrix/matvec/dense_matvec.hpp:13-56 *)
  F "Smatvec_core" "src/blas/matrix/matvec/dense_matvec.hpp:59" [Cpu; Mkl; Mpi] [In Func; Any; If ([Any; Throw]) ([Any]); Out Func]; (* src/blas/matrix/matvec/dense_matvec.hpp:59-102 *)
  F "Smatvec_core" "src/blas/matrix/matvec/dense_matvec.hpp:59" [Gpu] [In Func; Any; Out Func]; (* src/blas/matrix/matvec/dense_matvec.hpp:59-102 *)
  F "matvec_core" "src/blas/matrix/matvec/linearoperator_matvec.hpp:6" [Cpu; Mkl; Mpi; Gpu] [In Func; Any; If ([Any]) ([Any; Throw]); Out Func]; (* src/blas/matrix/matvec/linearoperator_matvec.hpp:6-34 *)
  F "rmatvec_core" "src/blas/matrix/matvec/linearoperator_matvec.hpp:36" [Cpu; Mkl; Mpi; Gpu] [In Func; Any; If ([Any]) ([Any; Throw]); Out Func]; (* src/blas/matrix/matvec/linearoperator_matvec.hpp:36-64 *)
  F "mscal_core" "src/blas/matrix/scal/crs_scal.hpp:7" [Cpu; Mkl; Mpi; Gpu] [In Func; Any; Out Func]; (* src/blas/matrix/scal/crs_scal.hpp:7-15 *)
  F "mscal_core" "src/blas/matrix/scal/dense_scal.hpp:8" [Cpu; Mkl; Mpi; Gpu] [In Func; Any; Out Func]; (* src/blas/matrix/scal/dense_scal.hpp:8-16 *)
  F "times_row_core" "src/blas/matrix/times/crs_line_times.hpp:9" [Cpu; Mkl; Mpi] [In Func; Any; If ([Any; Throw]) ([Any]); Out Func]; (* src/blas/matrix/times/crs_line_times.hpp:9-45 *)
  F "times_row_core" "src/blas/matrix/times/crs_line_times.hpp:9" [Gpu] [In Func; Any; Out Func]; (* src/blas/matrix/times/crs_line_times.hpp:9-45 *)
  F "times_col_core" "src/blas/matrix/times/crs_line_times.hpp:48" [Cpu; Mkl; Mpi] [In Func; Any; If ([Any; Throw]) ([Any]); Out Func]; (* src/blas/matrix/times/crs_line_times.hpp:48-93 *)
  F "times_col_core" "src/blas/matrix/times/crs_line_times.hpp:48" [Gpu] [In Func; Any; Out Func]; (* src/blas/matrix/times/crs_line_times.hpp:48-93 *)
  F "times_core" "src/blas/matrix/times/crs_times.hpp:9" [Cpu; Mkl; Mpi; Gpu] [In Func; Any; Out Func]; (* src/blas/matrix/times/crs_times.hpp:9-22 *)
  F "times_row_core" "src/blas/matrix/times/crs_times.hpp:25" [Cpu; Mkl; Mpi] [In Func; Any; If ([Any; Throw]) ([Any]); Out Func]; (* src/blas/matrix/times/crs_times.hpp:25-64 *)
  F "times_row_core" "src/blas/matrix/times/crs_times.hpp:25" [Gpu] [In Func; Any; Out Func]; (* src/blas/matrix/times/crs_times.hpp:25-64 *)
  F "times_col_core" "src/blas/matrix/times/crs_times.hpp:67" [Cpu; Mkl; Mpi] [In Func; Any; If ([Any; Throw]) ([Any]); Out Func]; (* src/blas/matrix/times/crs_times.hpp:67-105 *)
  F "times_col_core" "src/blas/matrix/times/crs_times.hpp:67" [Gpu] [In Func; Any; Out Func]; (* src/blas/matrix/times/crs_times.hpp:67-105 *)
  F "times_row_core" "src/blas/matrix/times/dense_line_times.hpp:9" [Cpu; Mkl; Mpi] [In Func; Any; If ([Any; Throw]) ([Any]); Out Func]; (* src/blas/matrix/times/dense_line_times.hpp:9-43 *)
  F "times_row_core" "src/blas/matrix/times/dense_line_times.hpp:9" [Gpu] [In Func; Any; Out Func]; (* src/blas/matrix/times/dense_line_times.hpp:9-43 *)
  F "times_col_core" "src/blas/matrix/times/dense_line_times.hpp:46" [Cpu; Mkl; Mpi] [In Func; Any; If ([Any; Throw]) ([Any]); Out Func]; (* src/blas/matrix/times/dense_line_times.hpp:46-81 *)
  F "times_col_core" "src/blas/matrix/times/dense_line_times.hpp:46" [Gpu] [In Func; Any; Out Func]; (* src/blas/matrix/times/dense_line_times.hpp:46-81 *)
  F "times_core" "src/blas/matrix/times/dense_times.hpp:9" [Cpu; Mkl; Mpi; Gpu] [In Func; Any; Out Func]; (* src/blas/matrix/times/dense_times.hpp:9-21 *)
  F "times_row_core" "src/blas/matrix/times/dense_times.hpp:24" [Cpu; Mkl; Mpi] [In Func; Any; If ([Any; Throw]) ([Any]); Out Func]; (* src/blas/matrix/times/dense_times.hpp:24-62 *)
  F "times_row_core" "src/blas/matrix/times/dense_times.hpp:24" [Gpu] [In Func; Any; Out Func]; (* src/blas/matrix/times/dense_times.hpp:24-62 *)
  F "times_col_core" "src/blas/matrix/times/dense_times.hpp:65" [Cpu; Mkl; Mpi] [In Func; Any; If ([Any; Throw]) ([Any]); Out Func]; (* src/blas/matrix/times/dense_times.hpp:65-103 *)
  F "times_col_core" "src/blas/matrix/times/dense_times.hpp:65" [Gpu] [In Func; Any; Out Func]; (* src/blas/matrix/times/dense_times.hpp:65-103 *)
  F "adds_core" "src/blas/tensor/adds/tensor_dense_adds.hpp:9" [Cpu; Mkl; Mpi; Gpu] [In Func; Any; Out Func]; (* src/blas/tensor/adds/tensor_dense_adds.hpp:9-21 *)
  F "adds_row_core" "src/blas/tensor/adds/tensor_dense_adds.hpp:24" [Cpu; Mkl; Mpi; Gpu] [In Func; Any; Out Func]; (* src/blas/tensor/adds/tensor_dense_adds.hpp:24-40 *)
  F "adds_col_core" "src/blas/tensor/adds/tensor_dense_adds.hpp:43" [Cpu; Mkl; Mpi; Gpu] [In Func; Any; Out Func]; (* src/blas/tensor/adds/tensor_dense_adds.hpp:43-59 *)
  F "adds_row_core" "src/blas/tensor/adds/tensor_dense_line_adds.hpp:9" [Cpu; Mkl; Mpi; Gpu] [In Func; Any; Out Func]; (* src/blas/tensor/adds/tensor_dense_line_adds.hpp:9-26 *)
  F "adds_col_core" "src/blas/tensor/adds/tensor_dense_line_adds.hpp:29" [Cpu; Mkl; Mpi; Gpu] [In Func; Any; Out Func]; (* src/blas/tensor/adds/tensor_dense_line_adds.hpp:29-46 *)
  F "copy_core" "src/blas/tensor/copy/tensor_crs_copy.hpp:7" [Cpu; Mkl; Mpi; Gpu] [In Util; Any; Out Util]; (* src/blas/tensor/copy/tensor_crs_copy.hpp:7-20 *)
  F "copy_core" "src/blas/tensor/copy/tensor_dense_copy.hpp:7" [Cpu; Mkl; Mpi; Gpu] [In Util; Any; Out Util]; (* src/blas/tensor/copy/tensor_dense_copy.hpp:7-19 *)
  F "tensor_Dense_diag_add_core" "src/blas/tensor/diag_op/tensor_dense_diag_op.hpp:8" [Cpu; Mkl; Mpi] [In Func; Any; If ([Any; Throw]) ([Any]); Out Func]; (* src/blas/tensor/diag_op/tensor_dense_diag_op.hpp:8-41 *)
  F "tensor_Dense_diag_add_core" "src/blas/tensor/diag_op/tensor_dense_diag_op.hpp:8" [Gpu] [In Func; Any; Out Func]; (* src/blas/tensor/diag_op/tensor_dense_diag_op.hpp:8-41 *)
  F "tensor_Dense_diag_add_core" "src/blas/tensor/diag_op/tensor_dense_diag_op.hpp:44" [Cpu; Mkl; Mpi] [In Func; Any; If ([Any; Throw]) ([Any]); Out Func]; (* src/blas/tensor/diag_op/tensor_dense_diag_op.hpp:44-79 *)
  F "tensor_Dense_diag_add_core" "src/blas/tensor/diag_op/tensor_dense_diag_op.hpp:44" [Gpu] [In Func; Any; Out Func]; (* src/blas/tensor/diag_op/tensor_dense_diag_op.hpp:44-79 *)
  F "tensor_Dense_diag_sub_core" "src/blas/tensor/diag_op/tensor_dense_diag_op.hpp:82" [Cpu; Mkl; Mpi] [In Func; Any; If ([Any; Throw]) ([Any]); Out Func]; (* src/blas/tensor/diag_op/tensor_dense_diag_op.hpp:82-115 *)
  F "tensor_Dense_diag_sub_core" "src/blas/tensor/diag_op/tensor_dense_diag_op.hpp:82" [Gpu] [In Func; Any; Out Func]; (* src/blas/tensor/diag_op/tensor_dense_diag_op.hpp:82-115 *)
  F "tensor_Dense_diag_sub_core" "src/blas/tensor/diag_op/tensor_dense_diag_op.hpp:118" [Cpu; Mkl; Mpi] [In Func; Any; If ([Any; Throw]) ([Any]); Out Func]; (* src/blas/tensor/diag_op/tensor_dense_diag_op.hpp:118-153 *)
  F "tensor_Dense_diag_sub_core" "src/blas/tensor/diag_op/tensor_dense_diag_op.hpp:118" [Gpu] [In Func; Any; Out Func]; (* src/blas/tensor/diag_op/tensor_dense_diag_op.hpp:118-153 *)
  F "tensor_Dense_diag_mul_core" "src/blas/tensor/diag_op/tensor_dense_diag_op.hpp:156" [Cpu; Mkl; Mpi] [In Func; Any; If ([Any; Throw]) ([Any]); Out Func]; (* src/blas/tensor/diag_op/tensor_dense_diag_op.hpp:156-189 *)
  F "tensor_Dense_diag_mul_core" "src/blas/tensor/diag_op/tensor_dense_diag_op.hpp:156" [Gpu] [In Func; Any; Out Func]; (* src/blas/tensor/diag_op/tensor_dense_diag_op.hpp:156-189 *)
  F "tensor_Dense_diag_mul_core" "src/blas/tensor/diag_op/tensor_dense_diag_op.hpp:192" [Cpu; Mkl; Mpi] [In Func; Any; If ([Any; Throw]) ([Any]); Out Func]; (* src/blas/tensor/diag_op/tensor_dense_diag_op.hpp:192-227 *)
  F "tensor_Dense_diag_mul_core" "src/blas/tensor/diag_op/tensor_dense_diag_op.hpp:192" [Gpu] [In Func; Any; Out Func]; (* src/blas/tensor/diag_op/tensor_dense_diag_op.hpp:192-227 *)
  F "tensor_Dense_diag_div_core" "src/blas/tensor/diag_op/tensor_dense_diag_op.hpp:230" [Cpu; Mkl; Mpi] [In Func; Any; If ([Any; Throw]) ([Any]); Out Func]; (* src/blas/tensor/diag_op/tensor_dense_diag_op.hpp:230-263 *)
  F "tensor_Dense_diag_div_core" "src/blas/tensor/diag_op/tensor_dense_diag_op.hpp:230" [Gpu] [In Func; Any; Out Func]; (* src/blas/tensor/diag_op/tensor_dense_diag_op.hpp:230-263 *)
  F "tensor_Dense_diag_div_core" "src/blas/tensor/diag_op/tensor_dense_diag_op.hpp:266" [Cpu; Mkl; Mpi] [In Func; Any; If ([Any; Throw]) ([Any]); Out Func]; (* src/blas/tensor/diag_op/tensor_dense_diag_op.hpp:266-301 *)
  F "tensor_Dense_diag_div_core" "src/blas/tensor/diag_op/tensor_dense_diag_op.hpp:266" [Gpu] [In Func; Any; Out Func]; (* src/blas/tensor/diag_op/tensor_dense_diag_op.hpp:266-301 *)
  F "CRS_tensor_Dense_Dmattens_core" "src/blas/tensor/mattens/crs-tensor_dense_mattens.hpp:10" [Cpu; Mkl; Mpi; Gpu] [In Func; Any; Out Func]; (* src/blas/tensor/mattens/crs-tensor_dense_mattens.hpp:10-25 *)
  F "CRS_tensor_Dense_Smattens_core" "src/blas/tensor/mattens/crs-tensor_dense_mattens.hpp:28" [Cpu; Mkl; Mpi; Gpu] [In Func; Any; Out Func]; (* src/blas/tensor/mattens/crs-tensor_dense_mattens.hpp:28-42 *)
  F "Dense_tensor_Dense_Dmattens_core" "src/blas/tensor/mattens/dense-tensor_dense_mattens.hpp:8" [Cpu; Mkl; Mpi; Gpu] [In Func; Any; Out Func]; (* src/blas/tensor/mattens/dense-tensor_dense_mattens.hpp:8-27 *)
  F "Dense_tensor_Dense_Smattens_core" "src/blas/tensor/mattens/dense-tensor_dense_mattens.hpp:30" [Cpu; Mkl; Mpi; Gpu] [In Func; Any; Out Func]; (* src/blas/tensor/mattens/dense-tensor_dense_mattens.hpp:30-49 *)
  F "tscal_core" "src/blas/tensor/scal/tensor_crs_scal.hpp:7" [Cpu; Mkl; Mpi; Gpu] [In Func; Any; Out Func]; (* src/blas/tensor/scal/tensor_crs_scal.hpp:7-15 *)
  F "tscal_core" "src/blas/tensor/scal/tensor_dense_scal.hpp:8" [Cpu; Mkl; Mpi; Gpu] [In Func; Any; Out Func]; (* src/blas/tensor/scal/tensor_dense_scal.hpp:8-16 *)
  F "tensadd_core" "src/blas/tensor/tensaddsub/tensor_crs_tensaddsub.hpp:8" [Cpu; Mkl; Mpi; Gpu] [In Func; Any; Out Func]; (* src/blas/tensor/tensaddsub/tensor_crs_tensaddsub.hpp:8-23 *)
  F "tenssub_core" "src/blas/tensor/tensaddsub/tensor_crs_tensaddsub.hpp:25" [Cpu; Mkl; Mpi; Gpu] [In Func; Any; Out Func]; (* src/blas/tensor/tensaddsub/tensor_crs_tensaddsub.hpp:25-40 *)
  F "tensadd_core" "src/blas/tensor/tensaddsub/tensor_dense_tensaddsub.hpp:8" [Cpu; Mkl; Mpi; Gpu] [In Func; Any; Out Func]; (* src/blas/tensor/tensaddsub/tensor_dense_tensaddsub.hpp:8-21 *)
  F "tenssub_core" "src/blas/tensor/tensaddsub/tensor_dense_tensaddsub.hpp:23" [Cpu; Mkl; Mpi; Gpu] [In Func; Any; Out Func]; (* src/blas/tensor/tensaddsub/tensor_dense_tensaddsub.hpp:23-36 *)
  F "tensor_CRS_Dense_Dtensmat_core" "src/blas/tensor/tensmat/tensor_crs-dense_tensmat.hpp:9" [Cpu; Mkl; Mpi; Gpu] [In Func; Any; Out Func]; (* src/blas/tensor/tensmat/tensor_crs-dense_tensmat.hpp:9-54 *)
  F "tensor_CRS_Dense_Stensmat_core" "src/blas/tensor/tensmat/tensor_crs-dense_tensmat.hpp:57" [Cpu; Mkl; Mpi; Gpu] [In Func; Any; Out Func]; (* src/blas/tensor/tensmat/tensor_crs-dense_tensmat.hpp:57-102 *)
  F "tensor_Dense_Dense_Dtensmat_core" "src/blas/tensor/tensmat/tensor_dense-dense_tensmat.hpp:8" [Cpu; Mkl; Mpi; Gpu] [In Func; Any; Out Func]; (* src/blas/tensor/tensmat/tensor_dense-dense_tensmat.hpp:8-27 *)
  F "tensor_Dense_Dense_Stensmat_core" "src/blas/tensor/tensmat/tensor_dense-dense_tensmat.hpp:30" [Cpu; Mkl; Mpi; Gpu] [In Func; Any; Out Func]; (* src/blas/tensor/tensmat/tensor_dense-dense_tensmat.hpp:30-49 *)
  F "tensor_CRS_tensor_Dense_Dtensmul_core" "src/blas/tensor/tensmul/tensor_crs-tensor_dense_tensmul.hpp:9" [Cpu; Mkl; Mpi; Gpu] [In Func; Any; Out Func]; (* src/blas/tensor/tensmul/tensor_crs-tensor_dense_tensmul.hpp:9-66 *)
  F "tensor_CRS_tensor_Dense_Stensmul_core" "src/blas/tensor/tensmul/tensor_crs-tensor_dense_tensmul.hpp:69" [Cpu; Mkl; Mpi; Gpu] [In Func; Any; Out Func]; (* src/blas/tensor/tensmul/tensor_crs-tensor_dense_tensmul.hpp:69-126 *)
  F "tensor_Dense_tensor_Dense_Dtensmul_core" "src/blas/tensor/tensmul/tensor_dense-tensor_dense_tensmul.hpp:8" [Cpu; Mkl; Mpi; Gpu] [In Func; Any; Out Func]; (* src/blas/tensor/tensmul/tensor_dense-tensor_dense_tensmul.hpp:8-26 *)
  F "tensor_Dense_tensor_Dense_Stensmul_core" "src/blas/tensor/tensmul/tensor_dense-tensor_dense_tensmul.hpp:29" [Cpu; Mkl; Mpi; Gpu] [In Func; Any; Out Func]; (* src/blas/tensor/tensmul/tensor_dense-tensor_dense_tensmul.hpp:29-47 *)
  F "Dtensvec_core" "src/blas/tensor/tensvec/tensor_crs_tensvec.hpp:9" [Cpu; Mkl; Mpi; Gpu] [In Func; Any; Out Func]; (* src/blas/tensor/tensvec/tensor_crs_tensvec.hpp:9-50 *)
  F "Stensvec_core" "src/blas/tensor/tensvec/tensor_crs_tensvec.hpp:53" [Cpu; Mkl; Mpi; Gpu] [In Func; Any; Out Func]; (* src/blas/tensor/tensvec/tensor_crs_tensvec.hpp:53-94 *)
  F "Dtensvec_core" "src/blas/tensor/tensvec/tensor_dense_tensvec.hpp:7" [Cpu; Mkl; Mpi; Gpu] [In Func; Any; Out Func]; (* src/blas/tensor/tensvec/tensor_dense_tensvec.hpp:7-25 *)
  F "Stensvec_core" "src/blas/tensor/tensvec/tensor_dense_tensvec.hpp:28" [Cpu; Mkl; Mpi; Gpu] [In Func; Any; Out Func]; (* src/blas/tensor/tensvec/tensor_dense_tensvec.hpp:28-46 *)
  F "times_core" "src/blas/tensor/times/tensor_crs_times.hpp:9" [Cpu; Mkl; Mpi; Gpu] [In Func; Any; Out Func]; (* src/blas/tensor/times/tensor_crs_times.hpp:9-22 *)
  F "times_row_core" "src/blas/tensor/times/tensor_crs_times.hpp:25" [Cpu; Mkl; Mpi] [In Func; Any; Loop ([Any; If ([Any; Throw]) ([Any]); Any]); Out Func]; (* src/blas/tensor/times/tensor_crs_times.hpp:25-72 *)
  F "times_row_core" "src/blas/tensor/times/tensor_crs_times.hpp:25" [Gpu] [In Func; Any; Out Func]; (* src/blas/tensor/times/tensor_crs_times.hpp:25-72 *)
  F "times_row_core" "src/blas/tensor/times/tensor_dense_line_times.hpp:9" [Cpu; Mkl; Mpi; Gpu] [In Func; Any; Out Func]; (* src/blas/tensor/times/tensor_dense_line_times.hpp:9-26 *)
  F "times_col_core" "src/blas/tensor/times/tensor_dense_line_times.hpp:29" [Cpu; Mkl; Mpi; Gpu] [In Func; Any; Out Func]; (* src/blas/tensor/times/tensor_dense_line_times.hpp:29-46 *)
  F "times_core" "src/blas/tensor/times/tensor_dense_times.hpp:9" [Cpu; Mkl; Mpi; Gpu] [In Func; Any; Out Func]; (* src/blas/tensor/times/tensor_dense_times.hpp:9-21 *)
  F "times_row_core" "src/blas/tensor/times/tensor_dense_times.hpp:24" [Cpu; Mkl; Mpi; Gpu] [In Func; Any; Out Func]; (* src/blas/tensor/times/tensor_dense_times.hpp:24-40 *)
  F "times_col_core" "src/blas/tensor/times/tensor_dense_times.hpp:43" [Cpu; Mkl; Mpi; Gpu] [In Func; Any; Out Func]; (* src/blas/tensor/times/tensor_dense_times.hpp:43-59 *)
  F "Dasum_core" "src/blas/vector/asum.hpp:5" [Cpu; Mkl] [In Func; Any; If ([Any; Throw]) ([Any]); Out Func; Any; Return]; (* src/blas/vector/asum.hpp:5-35 *)
  F "Dasum_core" "src/blas/vector/asum.hpp:5" [Mpi] [In Func; Any; If ([Any; Throw]) ([Any]); Any; Out Func; Any; Return]; (* src/blas/vector/asum.hpp:5-35 *)
  F "Dasum_core" "src/blas/vector/asum.hpp:5" [Gpu] [In Func; Any; Out Func; Any; Return]; (* src/blas/vector/asum.hpp:5-35 *)
  F "Sasum_core" "src/blas/vector/asum.hpp:37" [Cpu; Mkl] [In Func; Any; If ([Any; Throw]) ([Any]); Out Func; Any; Return]; (* src/blas/vector/asum.hpp:37-67 *)
  F "Sasum_core" "src/blas/vector/asum.hpp:37" [Mpi] [In Func; Any; If ([Any; Throw]) ([Any]); Any; Out Func; Any; Return]; (* src/blas/vector/asum.hpp:37-67 *)
  F "Sasum_core" "src/blas/vector/asum.hpp:37" [Gpu] [In Func; Any; Out Func; Any; Return]; (* src/blas/vector/asum.hpp:37-67 *)
  F "Daxpy_core" "src/blas/vector/axpy.hpp:6" [Cpu; Mkl; Mpi] [In Func; Any; If ([Any; Throw]) ([Any]); Out Func]; (* src/blas/vector/axpy.hpp:6-34 *)
  F "Daxpy_core" "src/blas/vector/axpy.hpp:6" [Gpu] [In Func; Any; Out Func]; (* src/blas/vector/axpy.hpp:6-34 *)
  F "Saxpy_core" "src/blas/vector/axpy.hpp:36" [Cpu; Mkl; Mpi] [In Func; Any; If ([Any; Throw]) ([Any]); Out Func]; (* src/blas/vector/axpy.hpp:36-64 *)
  F "Saxpy_core" "src/blas/vector/axpy.hpp:36" [Gpu] [In Func; Any; Out Func]; (* src/blas/vector/axpy.hpp:36-64 *)
  F "Daxpyz_core" "src/blas/vector/axpyz.hpp:6" [Cpu; Mkl; Mpi] [In Func; Any; If ([Any; Throw]) ([Any]); Out Func]; (* src/blas/vector/axpyz.hpp:6-37 *)
  F "Daxpyz_core" "src/blas/vector/axpyz.hpp:6" [Gpu] [In Func; Any; Out Func]; (* src/blas/vector/axpyz.hpp:6-37 *)
  F "Saxpyz_core" "src/blas/vector/axpyz.hpp:39" [Cpu; Mkl; Mpi] [In Func; Any; If ([Any; Throw]) ([Any]); Out Func]; (* src/blas/vector/axpyz.hpp:39-70 *)
  F "Saxpyz_core" "src/blas/vector/axpyz.hpp:39" [Gpu] [In Func; Any; Out Func]; (* src/blas/vector/axpyz.hpp:39-70 *)
  F "copy_core" "src/blas/vector/copy.hpp:5" [Cpu; Mkl; Mpi; Gpu] [In Util; Any; Out Util]; (* src/blas/vector/copy.hpp:5-16 *)
  F "Ddot_core" "src/blas/vector/dot.hpp:6" [Cpu; Mkl] [In Func; Any; If ([Any; Throw]) ([Any]); Out Func; Any; Return]; (* src/blas/vector/dot.hpp:6-41 *)
  F "Ddot_core" "src/blas/vector/dot.hpp:6" [Mpi] [In Func; Any; If ([Any; Throw]) ([Any]); Any; Out Func; Any; Return]; (* src/blas/vector/dot.hpp:6-41 *)
  F "Ddot_core" "src/blas/vector/dot.hpp:6" [Gpu] [In Func; Any; Out Func; Any; Return]; (* src/blas/vector/dot.hpp:6-41 *)
  F "Sdot_core" "src/blas/vector/dot.hpp:43" [Cpu; Mkl] [In Func; Any; If ([Any; Throw]) ([Any]); Out Func; Any; Return]; (* src/blas/vector/dot.hpp:43-78 *)
  F "Sdot_core" "src/blas/vector/dot.hpp:43" [Mpi] [In Func; Any; If ([Any; Throw]) ([Any]); Any; Out Func; Any; Return]; (* src/blas/vector/dot.hpp:43-78 *)
  F "Sdot_core" "src/blas/vector/dot.hpp:43" [Gpu] [In Func; Any; Out Func; Any; Return]; (* src/blas/vector/dot.hpp:43-78 *)
  F "Dnrm1_core" "src/blas/vector/nrm1.hpp:6" [Cpu; Mkl] [In Func; Any; If ([Any; Throw]) ([Any]); Out Func; Any; Return]; (* src/blas/vector/nrm1.hpp:6-38 *)
  F "Dnrm1_core" "src/blas/vector/nrm1.hpp:6" [Mpi] [In Func; Any; If ([Any; Throw]) ([Any]); Any; Out Func; Any; Return]; (* src/blas/vector/nrm1.hpp:6-38 *)
  F "Dnrm1_core" "src/blas/vector/nrm1.hpp:6" [Gpu] [In Func; Any; Out Func; Any; Return]; (* src/blas/vector/nrm1.hpp:6-38 *)
  F "Snrm1_core" "src/blas/vector/nrm1.hpp:40" [Cpu; Mkl] [In Func; Any; If ([Any; Throw]) ([Any]); Out Func; Any; Return]; (* src/blas/vector/nrm1.hpp:40-72 *)
  F "Snrm1_core" "src/blas/vector/nrm1.hpp:40" [Mpi] [In Func; Any; If ([Any; Throw]) ([Any]); Any; Out Func; Any; Return]; (* src/blas/vector/nrm1.hpp:40-72 *)
  F "Snrm1_core" "src/blas/vector/nrm1.hpp:40" [Gpu] [In Func; Any; Out Func; Any; Return]; (* src/blas/vector/nrm1.hpp:40-72 *)
  F "Dnrm2_core" "src/blas/vector/nrm2.hpp:6" [Cpu; Mkl] [In Func; Any; If ([Any; Throw]) ([Any]); Out Func; Any; Return]; (* src/blas/vector/nrm2.hpp:6-36 *)
  F "Dnrm2_core" "src/blas/vector/nrm2.hpp:6" [Mpi] [In Func; Any; If ([Any; Throw]) ([Any]); Any; Out Func; Any; Return]; (* src/blas/vector/nrm2.hpp:6-36 *)
  F "Dnrm2_core" "src/blas/vector/nrm2.hpp:6" [Gpu] [In Func; Any; Out Func; Any; Return]; (* src/blas/vector/nrm2.hpp:6-36 *)
  F "Snrm2_core" "src/blas/vector/nrm2.hpp:38" [Cpu; Mkl] [In Func; Any; If ([Any; Throw]) ([Any]); Out Func; Any; Return]; (* src/blas/vector/nrm2.hpp:38-68 *)
  F "Snrm2_core" "src/blas/vector/nrm2.hpp:38" [Mpi] [In Func; Any; If ([Any; Throw]) ([Any]); Any; Out Func; Any; Return]; (* src/blas/vector/nrm2.hpp:38-68 *)
  F "Snrm2_core" "src/blas/vector/nrm2.hpp:38" [Gpu] [In Func; Any; Out Func; Any; Return]; (* src/blas/vector/nrm2.hpp:38-68 *)
  F "Dscal_core" "src/blas/vector/scal.hpp:6" [Cpu; Mkl; Mpi] [In Func; Any; If ([Any; Throw]) ([Any]); Out Func]; (* src/blas/vector/scal.hpp:6-28 *)
  F "Dscal_core" "src/blas/vector/scal.hpp:6" [Gpu] [In Func; Any; Out Func]; (* src/blas/vector/scal.hpp:6-28 *)
  F "Sscal_core" "src/blas/vector/scal.hpp:30" [Cpu; Mkl; Mpi] [In Func; Any; If ([Any; Throw]) ([Any]); Out Func]; (* src/blas/vector/scal.hpp:30-52 *)
  F "Sscal_core" "src/blas/vector/scal.hpp:30" [Gpu] [In Func; Any; Out Func]; (* src/blas/vector/scal.hpp:30-52 *)
  F "Dsum_core" "src/blas/vector/sum.hpp:6" [Cpu; Mkl] [In Func; Any; If ([Any; Throw]) ([Any]); Out Func; Any; Return]; (* src/blas/vector/sum.hpp:6-38 *)
  F "Dsum_core" "src/blas/vector/sum.hpp:6" [Mpi] [In Func; Any; If ([Any; Throw]) ([Any]); Any; Out Func; Any; Return]; (* src/blas/vector/sum.hpp:6-38 *)
  F "Dsum_core" "src/blas/vector/sum.hpp:6" [Gpu] [In Func; Any; Out Func; Any; Return]; (* src/blas/vector/sum.hpp:6-38 *)
  F "Ssum_core" "src/blas/vector/sum.hpp:40" [Cpu; Mkl] [In Func; Any; If ([Any; Throw]) ([Any]); Out Func; Any; Return]; (* src/blas/vector/sum.hpp:40-72 *)
  F "Ssum_core" "src/blas/vector/sum.hpp:40" [Mpi] [In Func; Any; If ([Any; Throw]) ([Any]); Any; Out Func; Any; Return]; (* src/blas/vector/sum.hpp:40-72 *)
  F "Ssum_core" "src/blas/vector/sum.hpp:40" [Gpu] [In Func; Any; Out Func; Any; Return]; (* src/blas/vector/sum.hpp:40-72 *)
  F "times_scalar_core" "src/blas/vector/times.hpp:6" [Cpu; Mkl; Mpi; Gpu] [In Func; Any; Out Func]; (* src/blas/vector/times.hpp:6-19 *)
  F "times_vector_core" "src/blas/vector/times.hpp:21" [Cpu; Mkl; Mpi; Gpu] [In Func; Any; Out Func]; (* src/blas/vector/times.hpp:21-34 *)
  F "vecadd_core" "src/blas/vector/vecadd.hpp:5" [Cpu; Mkl; Mpi; Gpu] [In Func; Any; Out Func]; (* src/blas/vector/vecadd.hpp:5-18 *)
  F "vecsub_core" "src/blas/vector/vecsub.hpp:5" [Cpu; Mkl; Mpi; Gpu] [In Func; Any; Out Func]; (* src/blas/vector/vecsub.hpp:5-18 *)
  F "Dxpay_core" "src/blas/vector/xpay.hpp:6" [Cpu; Mkl; Mpi] [In Func; Any; If ([Any; Throw]) ([Any]); Out Func]; (* src/blas/vector/xpay.hpp:6-36 *)
  F "Dxpay_core" "src/blas/vector/xpay.hpp:6" [Gpu] [In Func; Any; Out Func] (* src/blas/vector/xpay.hpp:6-36 *)
].

Definition functions_2 : list func := [
  F "Sxpay_core" "src/blas/vector/xpay.hpp:38" [Cpu; Mkl; Mpi] [In Func; Any; If ([Any; Throw]) ([Any]); Out Func]; (* src/blas/vector/xpay.hpp:38-68 *)
  F "Sxpay_core" "src/blas/vector/xpay.hpp:38" [Gpu] [In Func; Any; Out Func]; (* src/blas/vector/xpay.hpp:38-68 *)
  F "LAPACK_DC" "src/eigen/DC.cpp:8" [Cpu; Mkl; Mpi; Gpu] [Any; In Solver; Any; Out Solver; Any; Return]; (* src/eigen/DC.cpp:8-26 *)
  F "solve" "src/eigen/DC.cpp:33" [Cpu; Mkl; Mpi; Gpu] [In Solver; Any; Out Solver; Any; Return]; (* src/eigen/DC.cpp:33-45 *)
  F "LAPACK_DC" "src/eigen/DC.cpp:53" [Cpu; Mkl; Mpi; Gpu] [Any; In Solver; Any; Out Solver; Any; Return]; (* src/eigen/DC.cpp:53-72 *)
  F "solve" "src/eigen/DC.cpp:81" [Cpu; Mkl; Mpi; Gpu] [In Solver; Any; Out Solver; Any; Return]; (* src/eigen/DC.cpp:81-94 *)
  F "monolish_LOBPCG" "src/eigen/lobpcg_generalized.cpp:9" [Cpu; Mkl; Mpi; Gpu] [Any; In Solver; Any; If ([Any; Throw]) ([]); Any; If ([Any; Throw]) ([]); Any; If ([Any; Throw]) ([]); Any; Loop ([Any; If ([Any; Leave]) ([Any; If ([Any; Throw]) ([])]); Any; Loop ([Any; If ([Any; Out Solver; Any; Return]) ([]); Any]); Any; If ([Any; Out Solver; Any; Return]) ([]); Any]); Any; Out Solver; Any; Return]; (* src/eigen/lobpcg_generalized.cpp:9-361 *)
  F "solve" "src/eigen/lobpcg_generalized.cpp:388" [Cpu; Mkl; Mpi; Gpu] [In Solver; Any; Out Solver; Any; Return]; (* src/eigen/lobpcg_generalized.cpp:388-403 *)
  F "monolish_LOBPCG" "src/eigen/lobpcg_standard.cpp:10" [Cpu; Mkl; Mpi; Gpu] [In Solver; Any; If ([Any; Throw]) ([]); Any; If ([Any; Throw]) ([]); Any; Loop ([Any; If ([Any; Leave]) ([Any; If ([Any; Throw]) ([])]); Any; Loop ([Any; If ([Any; Out Solver; Any; Return]) ([]); Any]); Any; If ([Any; Out Solver; Any; Return]) ([]); Any]); Any; Out Solver; Any; Return]; (* src/eigen/lobpcg_standard.cpp:10-314 *)
  F "solve" "src/eigen/lobpcg_standard.cpp:336" [Cpu; Mkl; Mpi; Gpu] [In Solver; Any; Out Solver; Any; Return]; (* src/eigen/lobpcg_standard.cpp:336-349 *)
  F "monolish_BiCGSTAB" "src/equation/bicgstab.cpp:12" [Cpu; Mkl; Mpi; Gpu] [In Solver; Any; If ([Any; Throw]) ([]); Any; If ([Any; Throw]) ([]); Any; Loop ([Any; If ([Any; Out Solver; Any; Return]) ([]); Any; If ([Any; Out Solver; Any; Return]) ([]); Any; If ([Any; Out Solver; Any; Return]) ([]); Any; If ([Any; Out Solver; Any; Return]) ([]); Any]); Any; Out Solver; Any; Return]; (* src/equation/bicgstab.cpp:12-135 *)
  F "solve" "src/equation/bicgstab.cpp:154" [Cpu; Mkl; Mpi; Gpu] [In Solver; Any; Out Solver; Any; Return]; (* src/equation/bicgstab.cpp:154-167 *)
  F "monolish_CG" "src/equation/cg.cpp:12" [Cpu; Mkl; Mpi; Gpu] [In Solver; Any; If ([Any; Throw]) ([]); Any; If ([Any; Throw]) ([]); Any; Loop ([Any; If ([Any; Out Solver; Any; Return]) ([]); Any; If ([Any; Out Solver; Any; Return]) ([])]); Any; Out Solver; Any; Return]; (* src/equation/cg.cpp:12-86 *)
  F "solve" "src/equation/cg.cpp:104" [Cpu; Mkl; Mpi; Gpu] [In Solver; Any; Out Solver; Any; Return]; (* src/equation/cg.cpp:104-116 *)
  F "solve" "src/equation/cholesky/cholesky.cpp:8" [Cpu; Mkl; Mpi] [In Func; Any; Throw; Out Func; Any; Return]; (* src/equation/cholesky/cholesky.cpp:8-32 *)
  F "solve" "src/equation/cholesky/cholesky.cpp:8" [Gpu] [In Func; Any; If ([Any]) ([Out Func; Any; Throw]); Out Func; Out Func; Any; Return]; (* src/equation/cholesky/cholesky.cpp:8-32 *)
  F "solve" "src/equation/cholesky/cholesky.cpp:39" [Cpu; Mkl; Mpi; Gpu] [In Func; Any; If ([Any; Throw]) ([]); Any; If ([Any]) ([Out Func; Any; Throw]); Out Func; Any; Return]; (* src/equation/cholesky/cholesky.cpp:39-74 *)
  F "solve" "src/equation/cholesky/cholesky.cpp:75" [Cpu; Mkl; Mpi; Gpu] [In Func; Any; If ([Any]) ([Out Func; Any; Throw]); Out Func; Any; Return]; (* src/equation/cholesky/cholesky.cpp:75-106 *)
  F "solve" "src/equation/cholesky/cholesky.cpp:108" [Cpu; Mkl; Mpi; Gpu] [In Func; Any; If ([Any]) ([Out Func; Any; Throw]); Out Func; Any; Return]; (* src/equation/cholesky/cholesky.cpp:108-140 *)
  F "solve" "src/equation/cholesky/cholesky.cpp:142" [Cpu; Mkl; Mpi; Gpu] [In Func; Any; If ([Any]) ([Out Func; Any; Throw]); Out Func; Any; Return]; (* src/equation/cholesky/cholesky.cpp:142-174 *)
  F "cusolver_Cholesky" "src/equation/cholesky/cholesky_cusolver_gpu.cpp:11" [Cpu; Mkl; Mpi] [In Func; Any; Throw; Out Func; Any; Return]; (* src/equation/cholesky/cholesky_cusolver_gpu.cpp:11-54 *)
  F "cusolver_Cholesky" "src/equation/cholesky/cholesky_cusolver_gpu.cpp:11" [Gpu] [In Func; Any; Out Func; Any; Return]; (* src/equation/cholesky/cholesky_cusolver_gpu.cpp:11-54 *)
  F "cusolver_Cholesky" "src/equation/cholesky/cholesky_cusolver_gpu.cpp:56" [Cpu; Mkl; Mpi; Gpu] [In Func; Any; Out Func; Any; Return]; (* src/equation/cholesky/cholesky_cusolver_gpu.cpp:56-99 *)
  F "create_precond" "src/equation/ic.cpp:12" [Cpu; Mkl; Mpi] [In Solver; Any; If ([Any; Throw]) ([]); Any; If ([Any; Throw]) ([]); Any; Throw; Out Solver]; (* src/equation/ic.cpp:12-84 *)
  F "create_precond" "src/equation/ic.cpp:12" [Gpu] [In Solver; Any; If ([Any; Throw]) ([]); Any; If ([Any; Throw]) ([]); Any; Out Solver]; (* src/equation/ic.cpp:12-84 *)
  F "apply_precond" "src/equation/ic.cpp:105" [Cpu; Mkl; Mpi] [In Solver; Any; Throw; Out Solver]; (* src/equation/ic.cpp:105-139 *)
  F "apply_precond" "src/equation/ic.cpp:105" [Gpu] [In Solver; Any; Out Solver]; (* src/equation/ic.cpp:105-139 *)
  F "cusparse_IC" "src/equation/ic.cpp:162" [Cpu; Mkl; Mpi] [In Solver; Any; If ([Any; Throw]) ([]); Any; If ([Any; Throw]) ([]); Any; If ([Any; Throw]) ([]); Any; Throw; Out Solver; Any; Return]; (* src/equation/ic.cpp:162-236 *)
  F "cusparse_IC" "src/equation/ic.cpp:162" [Gpu] [In Solver; Any; If ([Any; Throw]) ([]); Any; If ([Any; Throw]) ([]); Any; If ([Any; Throw]) ([]); Any; Out Solver; Any; Return]; (* src/equation/ic.cpp:162-236 *)
  F "solve" "src/equation/ic.cpp:257" [Cpu; Mkl; Mpi; Gpu] [In Solver; Any; Out Solver; Any; Return]; (* src/equation/ic.cpp:257-269 *)
  F "create_precond" "src/equation/ilu.cpp:12" [Cpu; Mkl; Mpi] [In Solver; Any; If ([Any; Throw]) ([]); Any; If ([Any; Throw]) ([]); Any; Throw; Out Solver]; (* src/equation/ilu.cpp:12-88 *)
  F "create_precond" "src/equation/ilu.cpp:12" [Gpu] [In Solver; Any; If ([Any; Throw]) ([]); Any; If ([Any; Throw]) ([]); Any; Out Solver]; (* src/equation/ilu.cpp:12-88 *)
  F "apply_precond" "src/equation/ilu.cpp:109" [Cpu; Mkl; Mpi] [In Solver; Any; Throw; Out Solver]; (* src/equation/ilu.cpp:109-143 *)
  F "apply_precond" "src/equation/ilu.cpp:109" [Gpu] [In Solver; Any; Out Solver]; (* src/equation/ilu.cpp:109-143 *)
  F "cusparse_ILU" "src/equation/ilu.cpp:166" [Cpu; Mkl; Mpi] [In Solver; Any; If ([Any; Throw]) ([]); Any; If ([Any; Throw]) ([]); Any; If ([Any; Throw]) ([]); Any; Throw; Out Solver; Any; Return]; (* src/equation/ilu.cpp:166-245 *)
  F "cusparse_ILU" "src/equation/ilu.cpp:166" [Gpu] [In Solver; Any; If ([Any; Throw]) ([]); Any; If ([Any; Throw]) ([]); Any; If ([Any; Throw]) ([]); Any; Out Solver; Any; Return]; (* src/equation/ilu.cpp:166-245 *)
  F "solve" "src/equation/ilu.cpp:266" [Cpu; Mkl; Mpi; Gpu] [In Solver; Any; Out Solver; Any; Return]; (* src/equation/ilu.cpp:266-278 *)
  F "create_precond" "src/equation/jacobi.cpp:11" [Cpu; Mkl; Mpi; Gpu] [In Solver; Any; If ([Any; Throw]) ([]); Any; Out Solver]; (* src/equation/jacobi.cpp:11-31 *)
  F "apply_precond" "src/equation/jacobi.cpp:52" [Cpu; Mkl; Mpi; Gpu] [In Solver; Any; Out Solver]; (* src/equation/jacobi.cpp:52-61 *)
  F "monolish_Jacobi" "src/equation/jacobi.cpp:83" [Cpu; Mkl; Mpi; Gpu] [In Solver; Any; If ([Any; Throw]) ([]); Any; If ([Any; Throw]) ([]); Any; Loop ([Any; If ([Any; Out Solver; Any; Return]) ([]); Any; If ([Any; Out Solver; Any; Return]) ([])]); Any; Out Solver; Any; Return]; (* src/equation/jacobi.cpp:83-150 *)
  F "solve" "src/equation/jacobi.cpp:171" [Cpu; Mkl; Mpi; Gpu] [In Solver; Any; Out Solver; Any; Return]; (* src/equation/jacobi.cpp:171-183 *)
  F "cusolver_ic_create_descr" "src/equation/kernel/ic_kernel.hpp:8" [Gpu] [In Func; Any; Out Func]; (* src/equation/kernel/ic_kernel.hpp:8-42 *)
  F "cusolver_ic_create_descr" "src/equation/kernel/ic_kernel.hpp:44" [Gpu] [In Func; Any; Out Func]; (* src/equation/kernel/ic_kernel.hpp:44-78 *)
  F "cusolver_ic_get_buffersize" "src/equation/kernel/ic_kernel.hpp:83" [Gpu] [In Func; Any; Out Func; Any; Return]; (* src/equation/kernel/ic_kernel.hpp:83-118 *)
  F "cusolver_ic_get_buffersize" "src/equation/kernel/ic_kernel.hpp:120" [Gpu] [In Func; Any; Out Func; Any; Return]; (* src/equation/kernel/ic_kernel.hpp:120-155 *)
  F "cusolver_ic" "src/equation/kernel/ic_kernel.hpp:160" [Gpu] [In Func; Any; If ([Any; Throw]) ([]); Any; If ([Any; Throw]) ([]); Out Func; Any; Return]; (* src/equation/kernel/ic_kernel.hpp:160-220 *)
  F "cusolver_ic" "src/equation/kernel/ic_kernel.hpp:222" [Gpu] [In Func; Any; Out Func; Any; Return]; (* src/equation/kernel/ic_kernel.hpp:222-281 *)
  F "cusolver_ic_solve" "src/equation/kernel/ic_kernel.hpp:286" [Gpu] [In Func; Any; Out Func; Any; Return]; (* src/equation/kernel/ic_kernel.hpp:286-322 *)
  F "cusolver_ic_solve" "src/equation/kernel/ic_kernel.hpp:324" [Gpu] [In Func; Any; Out Func; Any; Return]; (* src/equation/kernel/ic_kernel.hpp:324-360 *)
  F "cusolver_ilu_create_descr" "src/equation/kernel/ilu_kernel.hpp:9" [Gpu] [In Func; Any; Out Func]; (* src/equation/kernel/ilu_kernel.hpp:9-48 *)
  F "cusolver_ilu_create_descr" "src/equation/kernel/ilu_kernel.hpp:50" [Gpu] [In Func; Any; Out Func]; (* src/equation/kernel/ilu_kernel.hpp:50-89 *)
  F "cusolver_ilu_get_buffersize" "src/equation/kernel/ilu_kernel.hpp:94" [Gpu] [In Func; Any; Out Func; Any; Return]; (* src/equation/kernel/ilu_kernel.hpp:94-129 *)
  F "cusolver_ilu_get_buffersize" "src/equation/kernel/ilu_kernel.hpp:131" [Gpu] [In Func; Any; Out Func; Any; Return]; (* src/equation/kernel/ilu_kernel.hpp:131-166 *)
  F "cusolver_ilu" "src/equation/kernel/ilu_kernel.hpp:171" [Gpu] [In Func; Any; If ([Any; Throw]) ([]); Any; If ([Any; Throw]) ([]); Out Func; Any; Return]; (* src/equation/kernel/ilu_kernel.hpp:171-229 *)
  F "cusolver_ilu" "src/equation/kernel/ilu_kernel.hpp:231" [Gpu] [In Func; Any; Out Func; Any; Return]; (* src/equation/kernel/ilu_kernel.hpp:231-288 *)
  F "cusolver_ilu_solve" "src/equation/kernel/ilu_kernel.hpp:293" [Gpu] [In Func; Any; Out Func; Any; Return]; (* src/equation/kernel/ilu_kernel.hpp:293-330 *)
  F "cusolver_ilu_solve" "src/equation/kernel/ilu_kernel.hpp:332" [Gpu] [In Func; Any; Out Func; Any; Return]; (* src/equation/kernel/ilu_kernel.hpp:332-369 *)
  F "sor_kernel_lower" "src/equation/kernel/sor_kernel.hpp:5" [Cpu; Mkl; Mpi; Gpu] [In Func; Any; Loop ([Any; Loop ([Any; If ([Any]) ([Leave])]); Any]); Out Func]; (* src/equation/kernel/sor_kernel.hpp:5-23 *)
  F "sor_kernel_lower" "src/equation/kernel/sor_kernel.hpp:25" [Cpu; Mkl; Mpi; Gpu] [In Func; Any; Out Func]; (* src/equation/kernel/sor_kernel.hpp:25-39 *)
  F "sor_kernel_precond" "src/equation/kernel/sor_kernel.hpp:41" [Cpu; Mkl; Mpi; Gpu] [In Func; Any; Out Func]; (* src/equation/kernel/sor_kernel.hpp:41-72 *)
  F "sor_kernel_precond" "src/equation/kernel/sor_kernel.hpp:74" [Cpu; Mkl; Mpi; Gpu] [In Func; Any; Out Func]; (* src/equation/kernel/sor_kernel.hpp:74-102 *)
  F "solve" "src/equation/lu/lu.cpp:8" [Cpu; Mkl; Mpi; Gpu] [In Func; Any; Out Func; Any; Throw]; (* src/equation/lu/lu.cpp:8-20 *)
  F "solve" "src/equation/lu/lu.cpp:22" [Cpu; Mkl; Mpi; Gpu] [In Func; Any; Out Func; Any; Throw]; (* src/equation/lu/lu.cpp:22-34 *)
  F "solve" "src/equation/lu/lu.cpp:36" [Cpu; Mkl; Mpi; Gpu] [In Func; Any; If ([Any]) ([Out Func; Any; Throw]); Out Func; Any; Return]; (* src/equation/lu/lu.cpp:36-62 *)
  F "solve" "src/equation/lu/lu.cpp:63" [Cpu; Mkl; Mpi; Gpu] [In Func; Any; If ([Any]) ([Out Func; Any; Throw]); Out Func; Any; Return]; (* src/equation/lu/lu.cpp:63-88 *)
  F "solve" "src/equation/lu/lu.cpp:90" [Cpu; Mkl; Mpi; Gpu] [In Func; Any; If ([Any]) ([Out Func; Any; Throw]); Out Func; Any; Return]; (* src/equation/lu/lu.cpp:90-118 *)
  F "solve" "src/equation/lu/lu.cpp:120" [Cpu; Mkl; Mpi; Gpu] [In Func; Any; If ([Any]) ([Out Func; Any; Throw]); Out Func; Any; Return]; (* src/equation/lu/lu.cpp:120-147 *)
  F "cusolver_LU" "src/equation/lu/lu_cucolver_gpu.cpp:11" [Cpu; Mkl; Mpi; Gpu] [In Func; Any; If ([Any; Throw]) ([]); Out Func; Any; Return]; (* src/equation/lu/lu_cucolver_gpu.cpp:11-26 *)
  F "mumps_LU" "src/equation/lu/lu_mumps_cpu.cpp:15" [Cpu; Mkl; Mpi; Gpu] [In Func; Any; If ([Any; Throw]) ([]); Out Func; Any; Return]; (* src/equation/lu/lu_mumps_cpu.cpp:15-100 *)
  F "create_precond" "src/equation/none.cpp:10" [Cpu; Mkl; Mpi; Gpu] [Any; In Solver; Out Solver]; (* src/equation/none.cpp:10-19 *)
  F "apply_precond" "src/equation/none.cpp:39" [Cpu; Mkl; Mpi; Gpu] [In Solver; Any; Out Solver]; (* src/equation/none.cpp:39-46 *)
  F "solve" "src/equation/none.cpp:67" [Cpu; Mkl; Mpi; Gpu] [In Solver; Any; Out Solver; Any; Return]; (* src/equation/none.cpp:67-77 *)
  F "set_create_precond" "src/equation/precond.cpp:9" [Cpu; Mkl; Mpi; Gpu] [In Util; Any; Out Util]; (* src/equation/precond.cpp:9-17 *)
  F "set_apply_precond" "src/equation/precond.cpp:114" [Cpu; Mkl; Mpi; Gpu] [In Util; Any; Out Util]; (* src/equation/precond.cpp:114-123 *)
  F "solve" "src/equation/qr/qr.cpp:5" [Cpu; Mkl; Mpi] [In Func; Any; Throw; Out Func; Any; Return]; (* src/equation/qr/qr.cpp:5-29 *)
  F "solve" "src/equation/qr/qr.cpp:5" [Gpu] [In Func; Any; If ([Any]) ([Out Func; Any; Throw]); Out Func; Out Func; Any; Return]; (* src/equation/qr/qr.cpp:5-29 *)
  F "cusolver_QR" "src/equation/qr/qr_cusolver_gpu.cpp:11" [Cpu; Mkl; Mpi] [In Func; Any; Throw; Out Func; Any; Return]; (* src/equation/qr/qr_cusolver_gpu.cpp:11-54 *)
  F "cusolver_QR" "src/equation/qr/qr_cusolver_gpu.cpp:11" [Gpu] [In Func; Any; Out Func; Any; Return]; (* src/equation/qr/qr_cusolver_gpu.cpp:11-54 *)
  F "cusolver_QR" "src/equation/qr/qr_cusolver_gpu.cpp:56" [Cpu; Mkl; Mpi] [In Func; Any; Throw; Out Func; Any; Return]; (* src/equation/qr/qr_cusolver_gpu.cpp:56-100 *)
  F "cusolver_QR" "src/equation/qr/qr_cusolver_gpu.cpp:56" [Gpu] [In Func; Any; Out Func; Any; Return]; (* src/equation/qr/qr_cusolver_gpu.cpp:56-100 *)
  F "create_precond" "src/equation/sor.cpp:12" [Cpu; Mkl; Mpi; Gpu] [In Solver; Any; If ([Any; Throw]) ([]); Any; Out Solver]; (* src/equation/sor.cpp:12-39 *)
  F "apply_precond" "src/equation/sor.cpp:60" [Cpu; Mkl; Mpi; Gpu] [In Solver; Any; Out Solver]; (* src/equation/sor.cpp:60-68 *)
  F "monolish_SOR" "src/equation/sor.cpp:91" [Cpu; Mkl; Mpi; Gpu] [In Solver; Any; If ([Any; Throw]) ([]); Any; If ([Any; Throw]) ([]); Any; Loop ([Any; If ([Any; Out Solver; Any; Return]) ([]); Any; If ([Any; Out Solver; Any; Return]) ([])]); Any; Out Solver; Any; Return]; (* src/equation/sor.cpp:91-163 *)
  F "solve" "src/equation/sor.cpp:184" [Cpu; Mkl; Mpi; Gpu] [In Solver; Any; Out Solver; Any; Return]; (* src/equation/sor.cpp:184-196 *)
  F "vadd" "src/internal/arithmetic/double_arithmetic.cpp:9" [Cpu; Mkl; Mpi] [In Func; Any; If ([Any; Throw]) ([Any]); Out Func]; (* src/internal/arithmetic/double_arithmetic.cpp:9-31 *)
  F "vadd" "src/internal/arithmetic/double_arithmetic.cpp:9" [Gpu] [In Func; Any; Out Func]; (* src/internal/arithmetic/double_arithmetic.cpp:9-31 *)
  F "vsub" "src/internal/arithmetic/double_arithmetic.cpp:34" [Cpu; Mkl; Mpi] [In Func; Any; If ([Any; Throw]) ([Any]); Out Func]; (* src/internal/arithmetic/double_arithmetic.cpp:34-56 *)
  F "vsub" "src/internal/arithmetic/double_arithmetic.cpp:34" [Gpu] [In Func; Any; Out Func]; (* src/internal/arithmetic/double_arithmetic.cpp:34-56 *)
  F "vmul" "src/internal/arithmetic/double_arithmetic.cpp:59" [Cpu; Mkl; Mpi] [In Func; Any; If ([Any; Throw]) ([Any]); Out Func]; (* src/internal/arithmetic/double_arithmetic.cpp:59-81 *)
  F "vmul" "src/internal/arithmetic/double_arithmetic.cpp:59" [Gpu] [In Func; Any; Out Func]; (* src/internal/arithmetic/double_arithmetic.cpp:59-81 *)
  F "vdiv" "src/internal/arithmetic/double_arithmetic.cpp:84" [Cpu; Mkl; Mpi] [In Func; Any; If ([Any; Throw]) ([Any]); Out Func]; (* src/internal/arithmetic/double_arithmetic.cpp:84-106 *)
  F "vdiv" "src/internal/arithmetic/double_arithmetic.cpp:84" [Gpu] [In Func; Any; Out Func]; (* src/internal/arithmetic/double_arithmetic.cpp:84-106 *)
  F "vadd" "src/internal/arithmetic/double_arithmetic.cpp:112" [Cpu; Mkl; Mpi] [In Func; Any; If ([Any; Throw]) ([Any]); Out Func]; (* src/internal/arithmetic/double_arithmetic.cpp:112-138 *)
  F "vadd" "src/internal/arithmetic/double_arithmetic.cpp:112" [Gpu] [In Func; Any; Out Func]; (* src/internal/arithmetic/double_arithmetic.cpp:112-138 *)
  F "vsub" "src/internal/arithmetic/double_arithmetic.cpp:141" [Cpu; Mkl; Mpi] [In Func; Any; If ([Any; Throw]) ([Any]); Out Func]; (* src/internal/arithmetic/double_arithmetic.cpp:141-167 *)
  F "vsub" "src/internal/arithmetic/double_arithmetic.cpp:141" [Gpu] [In Func; Any; Out Func]; (* src/internal/arithmetic/double_arithmetic.cpp:141-167 *)
  F "vmul" "src/internal/arithmetic/double_arithmetic.cpp:170" [Cpu; Mkl; Mpi] [In Func; Any; If ([Any; Throw]) ([Any]); Out Func]; (* src/internal/arithmetic/double_arithmetic.cpp:170-196 *)
  F "vmul" "src/internal/arithmetic/double_arithmetic.cpp:170" [Gpu] [In Func; Any; Out Func]; (* src/internal/arithmetic/double_arithmetic.cpp:170-196 *)
  F "vdiv" "src/internal/arithmetic/double_arithmetic.cpp:199" [Cpu; Mkl; Mpi] [In Func; Any; If ([Any; Throw]) ([Any]); Out Func]; (* src/internal/arithmetic/double_arithmetic.cpp:199-225 *)
  F "vdiv" "src/internal/arithmetic/double_arithmetic.cpp:199" [Gpu] [In Func; Any; Out Func]; (* src/internal/arithmetic/double_arithmetic.cpp:199-225 *)
  F "vcopy" "src/internal/arithmetic/double_arithmetic.cpp:232" [Cpu; Mkl; Mpi] [In Func; Any; If ([Any; Throw]) ([Any]); Out Func]; (* src/internal/arithmetic/double_arithmetic.cpp:232-251 *)
  F "vcopy" "src/internal/arithmetic/double_arithmetic.cpp:232" [Gpu] [In Func; Any; Out Func]; (* src/internal/arithmetic/double_arithmetic.cpp:232-251 *)
  F "vbroadcast" "src/internal/arithmetic/double_arithmetic.cpp:254" [Cpu; Mkl; Mpi] [In Func; Any; If ([Any; Throw]) ([Any]); Out Func]; (* src/internal/arithmetic/double_arithmetic.cpp:254-274 *)
  F "vbroadcast" "src/internal/arithmetic/double_arithmetic.cpp:254" [Gpu] [In Func; Any; Out Func]; (* src/internal/arithmetic/double_arithmetic.cpp:254-274 *)
  F "vequal" "src/internal/arithmetic/double_arithmetic.cpp:277" [Cpu; Mkl; Mpi] [In Func; Any; If ([Any; Throw]) ([Any]); Out Func; Any; Return]; (* src/internal/arithmetic/double_arithmetic.cpp:277-305 *)
  F "vequal" "src/internal/arithmetic/double_arithmetic.cpp:277" [Gpu] [In Func; Any; Out Func; Any; Return]; (* src/internal/arithmetic/double_arithmetic.cpp:277-305 *)
  F "vreciprocal" "src/internal/arithmetic/double_arithmetic.cpp:308" [Cpu; Mkl; Mpi] [In Func; Any; If ([Any; Throw]) ([Any]); Out Func]; (* src/internal/arithmetic/double_arithmetic.cpp:308-329 *)
  F "vreciprocal" "src/internal/arithmetic/double_arithmetic.cpp:308" [Gpu] [In Func; Any; Out Func]; (* src/internal/arithmetic/double_arithmetic.cpp:308-329 *)
  F "vadd" "src/internal/arithmetic/float_arithmetic.cpp:9" [Cpu; Mkl; Mpi] [In Func; Any; If ([Any; Throw]) ([Any]); Out Func]; (* src/internal/arithmetic/float_arithmetic.cpp:9-31 *)
  F "vadd" "src/internal/arithmetic/float_arithmetic.cpp:9" [Gpu] [In Func; Any; Out Func]; (* src/internal/arithmetic/float_arithmetic.cpp:9-31 *)
  F "vsub" "src/internal/arithmetic/float_arithmetic.cpp:34" [Cpu; Mkl; Mpi] [In Func; Any; If ([Any; Throw]) ([Any]); Out Func]; (* src/internal/arithmetic/float_arithmetic.cpp:34-56 *)
  F "vsub" "src/internal/arithmetic/float_arithmetic.cpp:34" [Gpu] [In Func; Any; Out Func]; (* src/internal/arithmetic/float_arithmetic.cpp:34-56 *)
  F "vmul" "src/internal/arithmetic/float_arithmetic.cpp:59" [Cpu; Mkl; Mpi] [In Func; Any; If ([Any; Throw]) ([Any]); Out Func]; (* src/internal/arithmetic/float_arithmetic.cpp:59-81 *)
  F "vmul" "src/internal/arithmetic/float_arithmetic.cpp:59" [Gpu] [In Func; Any; Out Func]; (* src/internal/arithmetic/float_arithmetic.cpp:59-81 *)
  F "vdiv" "src/internal/arithmetic/float_arithmetic.cpp:84" [Cpu; Mkl; Mpi] [In Func; Any; If ([Any; Throw]) ([Any]); Out Func]; (* src/internal/arithmetic/float_arithmetic.cpp:84-106 *)
  F "vdiv" "src/internal/arithmetic/float_arithmetic.cpp:84" [Gpu] [In Func; Any; Out Func]; (* src/internal/arithmetic/float_arithmetic.cpp:84-106 *)
  F "vadd" "src/internal/arithmetic/float_arithmetic.cpp:112" [Cpu; Mkl; Mpi] [In Func; Any; If ([Any; Throw]) ([Any]); Out Func]; (* src/internal/arithmetic/float_arithmetic.cpp:112-138 *)
  F "vadd" "src/internal/arithmetic/float_arithmetic.cpp:112" [Gpu] [In Func; Any; Out Func]; (* src/internal/arithmetic/float_arithmetic.cpp:112-138 *)
  F "vsub" "src/internal/arithmetic/float_arithmetic.cpp:141" [Cpu; Mkl; Mpi] [In Func; Any; If ([Any; Throw]) ([Any]); Out Func]; (* src/internal/arithmetic/float_arithmetic.cpp:141-167 *)
  F "vsub" "src/internal/arithmetic/float_arithmetic.cpp:141" [Gpu] [In Func; Any; Out Func]; (* src/internal/arithmetic/float_arithmetic.cpp:141-167 *)
  F "vmul" "src/internal/arithmetic/float_arithmetic.cpp:170" [Cpu; Mkl; Mpi] [In Func; Any; If ([Any; Throw]) ([Any]); Out Func]; (* src/internal/arithmetic/float_arithmetic.cpp:170-196 *)
  F "vmul" "src/internal/arithmetic/float_arithmetic.cpp:170" [Gpu] [In Func; Any; Out Func]; (* src/internal/arithmetic/float_arithmetic.cpp:170-196 *)
  F "vdiv" "src/internal/arithmetic/float_arithmetic.cpp:199" [Cpu; Mkl; Mpi] [In Func; Any; If ([Any; Throw]) ([Any]); Out Func]; (* src/internal/arithmetic/float_arithmetic.cpp:199-225 *)
  F "vdiv" "src/internal/arithmetic/float_arithmetic.cpp:199" [Gpu] [In Func; Any; Out Func]; (* src/internal/arithmetic/float_arithmetic.cpp:199-225 *)
  F "vcopy" "src/internal/arithmetic/float_arithmetic.cpp:232" [Cpu; Mkl; Mpi] [In Func; Any; If ([Any; Throw]) ([Any]); Out Func]; (* src/internal/arithmetic/float_arithmetic.cpp:232-251 *)
  F "vcopy" "src/internal/arithmetic/float_arithmetic.cpp:232" [Gpu] [In Func; Any; Out Func]; (* src/internal/arithmetic/float_arithmetic.cpp:232-251 *)
  F "vbroadcast" "src/internal/arithmetic/float_arithmetic.cpp:254" [Cpu; Mkl; Mpi] [In Func; Any; If ([Any; Throw]) ([Any]); Out Func]; (* src/internal/arithmetic/float_arithmetic.cpp:254-274 *)
  F "vbroadcast" "src/internal/arithmetic/float_arithmetic.cpp:254" [Gpu] [In Func; Any; Out Func]; (* src/internal/arithmetic/float_arithmetic.cpp:254-274 *)
  F "vequal" "src/internal/arithmetic/float_arithmetic.cpp:277" [Cpu; Mkl; Mpi] [In Func; Any; If ([Any; Throw]) ([Any]); Out Func; Any; Return]; (* src/internal/arithmetic/float_arithmetic.cpp:277-305 *)
  F "vequal" "src/internal/arithmetic/float_arithmetic.cpp:277" [Gpu] [In Func; Any; Out Func; Any; Return]; (* src/internal/arithmetic/float_arithmetic.cpp:277-305 *)
  F "vreciprocal" "src/internal/arithmetic/float_arithmetic.cpp:308" [Cpu; Mkl; Mpi] [In Func; Any; If ([Any; Throw]) ([Any]); Out Func]; (* src/internal/arithmetic/float_arithmetic.cpp:308-329 *)
  F "vreciprocal" "src/internal/arithmetic/float_arithmetic.cpp:308" [Gpu] [In Func; Any; Out Func]; (* src/internal/arithmetic/float_arithmetic.cpp:308-329 *)
  F "vcopy" "src/internal/arithmetic/integer_arithmetic.cpp:11" [Cpu; Mkl; Mpi] [In Func; Any; If ([Any; Throw]) ([Any]); Out Func]; (* src/internal/arithmetic/integer_arithmetic.cpp:11-33 *)
  F "vcopy" "src/internal/arithmetic/integer_arithmetic.cpp:11" [Gpu] [In Func; Any; Out Func]; (* src/internal/arithmetic/integer_arithmetic.cpp:11-33 *)
  F "vcopy" "src/internal/arithmetic/integer_arithmetic.cpp:36" [Cpu; Mkl; Mpi] [In Func; Any; If ([Any; Throw]) ([Any]); Out Func]; (* src/internal/arithmetic/integer_arithmetic.cpp:36-58 *)
  F "vcopy" "src/internal/arithmetic/integer_arithmetic.cpp:36" [Gpu] [In Func; Any; Out Func]; (* src/internal/arithmetic/integer_arithmetic.cpp:36-58 *)
  F "vbroadcast" "src/internal/arithmetic/integer_arithmetic.cpp:61" [Cpu; Mkl; Mpi] [In Func; Any; If ([Any; Throw]) ([Any]); Out Func]; (* src/internal/arithmetic/integer_arithmetic.cpp:61-83 *)
  F "vbroadcast" "src/internal/arithmetic/integer_arithmetic.cpp:61" [Gpu] [In Func; Any; Out Func]; (* src/internal/arithmetic/integer_arithmetic.cpp:61-83 *)
  F "vbroadcast" "src/internal/arithmetic/integer_arithmetic.cpp:86" [Cpu; Mkl; Mpi] [In Func; Any; If ([Any; Throw]) ([Any]); Out Func]; (* src/internal/arithmetic/integer_arithmetic.cpp:86-108 *)
  F "vbroadcast" "src/internal/arithmetic/integer_arithmetic.cpp:86" [Gpu] [In Func; Any; Out Func]; (* src/internal/arithmetic/integer_arithmetic.cpp:86-108 *)
  F "vequal" "src/internal/arithmetic/integer_arithmetic.cpp:111" [Cpu; Mkl; Mpi] [In Func; Any; If ([Any; Throw]) ([Any]); Out Func; Any; Return]; (* src/internal/arithmetic/integer_arithmetic.cpp:111-139 *)
  F "vequal" "src/internal/arithmetic/integer_arithmetic.cpp:111" [Gpu] [In Func; Any; Out Func; Any; Return]; (* src/internal/arithmetic/integer_arithmetic.cpp:111-139 *)
  F "vequal" "src/internal/arithmetic/integer_arithmetic.cpp:142" [Cpu; Mkl; Mpi] [In Func; Any; If ([Any; Throw]) ([Any]); Out Func; Any; Return]; (* src/internal/arithmetic/integer_arithmetic.cpp:142-170 *)
  F "vequal" "src/internal/arithmetic/integer_arithmetic.cpp:142" [Gpu] [In Func; Any; Out Func; Any; Return]; (* src/internal/arithmetic/integer_arithmetic.cpp:142-170 *)
  F "getrf" "src/internal/lapack/getrf/dense_double_getrf.cpp:12" [Cpu; Mkl; Mpi] [In Func; Any; If ([Out Func; Any]) ([]); Any; If ([Any; Throw]) ([Any]); Out Func; Any; Return]; (* src/internal/lapack/getrf/dense_double_getrf.cpp:12-69 *)
  F "getrf" "src/internal/lapack/getrf/dense_double_getrf.cpp:12" [Gpu] [In Func; Any; If ([Out Func; Any]) ([]); Any; Out Func; Any; Return]; (* src/internal/lapack/getrf/dense_double_getrf.cpp:12-69 *)
  F "getrf" "src/internal/lapack/getrf/dense_float_getrf.cpp:12" [Cpu; Mkl; Mpi] [In Func; Any; If ([Out Func; Any]) ([]); Any; If ([Any; Throw]) ([Any]); Out Func; Any; Return]; (* src/internal/lapack/getrf/dense_float_getrf.cpp:12-69 *)
  F "getrf" "src/internal/lapack/getrf/dense_float_getrf.cpp:12" [Gpu] [In Func; Any; If ([Out Func; Any]) ([]); Any; Out Func; Any; Return]; (* src/internal/lapack/getrf/dense_float_getrf.cpp:12-69 *)
  F "getrs" "src/internal/lapack/getrs/dense_double_getrs.cpp:12" [Cpu; Mkl; Mpi] [In Func; Any; If ([Out Func; Any]) ([]); Any; If ([Any; Throw]) ([Any]); Out Func; Any; Return]; (* src/internal/lapack/getrs/dense_double_getrs.cpp:12-70 *)
  F "getrs" "src/internal/lapack/getrs/dense_double_getrs.cpp:12" [Gpu] [In Func; Any; If ([Out Func; Any]) ([]); Any; Out Func; Any; Return]; (* src/internal/lapack/getrs/dense_double_getrs.cpp:12-70 *)
  F "getrs" "src/internal/lapack/getrs/dense_float_getrs.cpp:12" [Cpu; Mkl; Mpi] [In Func; Any; If ([Out Func; Any]) ([]); Any; If ([Any; Throw]) ([Any]); Out Func; Any; Return]; (* src/internal/lapack/getrs/dense_float_getrs.cpp:12-70 *)
  F "getrs" "src/internal/lapack/getrs/dense_float_getrs.cpp:12" [Gpu] [In Func; Any; If ([Out Func; Any]) ([]); Any; Out Func; Any; Return]; (* src/internal/lapack/getrs/dense_float_getrs.cpp:12-70 *)
  F "syevd" "src/internal/lapack/syev/dense_double_syev.cpp:12" [Cpu; Mkl; Mpi] [In Func; Any; Out Func; Any; Return]; (* src/internal/lapack/syev/dense_double_syev.cpp:12-83 *)
  F "syevd" "src/internal/lapack/syev/dense_double_syev.cpp:12" [Gpu] [In Func; Any; If ([Any]) ([Any; If ([Any]) ([Any; Throw])]); Any; If ([Any]) ([Any; If ([Any]) ([Any; Throw])]); Any; Out Func; Any; Return]; (* src/internal/lapack/syev/dense_double_syev.cpp:12-83 *)
  F "syevd" "src/internal/lapack/syev/dense_float_syev.cpp:12" [Cpu; Mkl; Mpi] [In Func; Any; Out Func; Any; Return]; (* src/internal/lapack/syev/dense_float_syev.cpp:12-83 *)
  F "syevd" "src/internal/lapack/syev/dense_float_syev.cpp:12" [Gpu] [In Func; Any; If ([Any]) ([Any; If ([Any]) ([Any; Throw])]); Any; If ([Any]) ([Any; If ([Any]) ([Any; Throw])]); Any; Out Func; Any; Return]; (* src/internal/lapack/syev/dense_float_syev.cpp:12-83 *)
  F "sygvd" "src/internal/lapack/sygv/dense_double_sygv.cpp:12" [Cpu; Mkl; Mpi] [In Func; Any; Out Func; Any; Return]; (* src/internal/lapack/sygv/dense_double_sygv.cpp:12-101 *)
  F "sygvd" "src/internal/lapack/sygv/dense_double_sygv.cpp:12" [Gpu] [In Func; Any; If ([Any; Throw]) ([]); Any; If ([Any]) ([Any; If ([Any]) ([Any; Throw])]); Any; If ([Any]) ([Any; If ([Any]) ([Any; Throw])]); Any; Out Func; Any; Return]; (* src/internal/lapack/sygv/dense_double_sygv.cpp:12-101 *)
  F "sygvd" "src/internal/lapack/sygv/dense_float_sygv.cpp:12" [Cpu; Mkl; Mpi] [In Func; Any; Out Func; Any; Return]; (* src/internal/lapack/sygv/dense_float_sygv.cpp:12-101 *)
  F "sygvd" "src/internal/lapack/sygv/dense_float_sygv.cpp:12" [Gpu] [In Func; Any; If ([Any; Throw]) ([]); Any; If ([Any]) ([Any; If ([Any]) ([Any; Throw])]); Any; If ([Any]) ([Any; If ([Any]) ([Any; Throw])]); Any; Out Func; Any; Return]; (* src/internal/lapack/sygv/dense_float_sygv.cpp:12-101 *)
  F "sytrf" "src/internal/lapack/sytrf/dense_double_sytrf.cpp:12" [Cpu; Mkl; Mpi] [In Func; Any; If ([Out Func; Any]) ([]); Any; If ([Any; Throw]) ([Any]); Out Func; Any; Return]; (* src/internal/lapack/sytrf/dense_double_sytrf.cpp:12-70 *)
  F "sytrf" "src/internal/lapack/sytrf/dense_double_sytrf.cpp:12" [Gpu] [In Func; Any; If ([Out Func; Any]) ([]); Any; Out Func; Any; Return]; (* src/internal/lapack/sytrf/dense_double_sytrf.cpp:12-70 *)
  F "sytrf" "src/internal/lapack/sytrf/dense_float_sytrf.cpp:12" [Cpu; Mkl; Mpi] [In Func; Any; If ([Out Func; Any]) ([]); Any; If ([Any; Throw]) ([Any]); Out Func; Any; Return]; (* src/internal/lapack/sytrf/dense_float_sytrf.cpp:12-70 *)
  F "sytrf" "src/internal/lapack/sytrf/dense_float_sytrf.cpp:12" [Gpu] [In Func; Any; If ([Out Func; Any]) ([]); Any; Out Func; Any; Return]; (* src/internal/lapack/sytrf/dense_float_sytrf.cpp:12-70 *)
  F "sytrs" "src/internal/lapack/sytrs/dense_double_sytrs.cpp:12" [Cpu; Mkl; Mpi; Gpu] [In Func; Any; Out Func; Any; Return]; (* src/internal/lapack/sytrs/dense_double_sytrs.cpp:12-82 *)
  F "sytrs" "src/internal/lapack/sytrs/dense_float_sytrs.cpp:12" [Cpu; Mkl; Mpi; Gpu] [In Func; Any; Out Func; Any; Return]; (* src/internal/lapack/sytrs/dense_float_sytrs.cpp:12-82 *)
  F "vsqrt" "src/internal/math/double_math.cpp:10" [Cpu; Mkl; Mpi] [In Func; Any; If ([Any; Throw]) ([Any]); Out Func]; (* src/internal/math/double_math.cpp:10-35 *)
  F "vsqrt" "src/internal/math/double_math.cpp:10" [Gpu] [In Func; Any; Out Func]; (* src/internal/math/double_math.cpp:10-35 *)
  F "vpow" "src/internal/math/double_math.cpp:40" [Cpu; Mkl; Mpi] [In Func; Any; If ([Any; Throw]) ([Any]); Out Func]; (* src/internal/math/double_math.cpp:40-66 *)
  F "vpow" "src/internal/math/double_math.cpp:40" [Gpu] [In Func; Any; Out Func]; (* src/internal/math/double_math.cpp:40-66 *)
  F "vpow" "src/internal/math/double_math.cpp:68" [Cpu; Mkl; Mpi] [In Func; Any; If ([Any; Throw]) ([Any]); Out Func]; (* src/internal/math/double_math.cpp:68-94 *)
  F "vpow" "src/internal/math/double_math.cpp:68" [Gpu] [In Func; Any; Out Func]; (* src/internal/math/double_math.cpp:68-94 *)
  F "vsin" "src/internal/math/double_math.cpp:99" [Cpu; Mkl; Mpi] [In Func; Any; If ([Any; Throw]) ([Any]); Out Func]; (* src/internal/math/double_math.cpp:99-124 *)
  F "vsin" "src/internal/math/double_math.cpp:99" [Gpu] [In Func; Any; Out Func]; (* src/internal/math/double_math.cpp:99-124 *)
  F "vsinh" "src/internal/math/double_math.cpp:126" [Cpu; Mkl; Mpi] [In Func; Any; If ([Any; Throw]) ([Any]); Out Func]; (* src/internal/math/double_math.cpp:126-151 *)
  F "vsinh" "src/internal/math/double_math.cpp:126" [Gpu] [In Func; Any; Out Func]; (* src/internal/math/double_math.cpp:126-151 *)
  F "vasin" "src/internal/math/double_math.cpp:153" [Cpu; Mkl; Mpi] [In Func; Any; If ([Any; Throw]) ([Any]); Out Func]; (* src/internal/math/double_math.cpp:153-178 *)
  F "vasin" "src/internal/math/double_math.cpp:153" [Gpu] [In Func; Any; Out Func]; (* src/internal/math/double_math.cpp:153-178 *)
  F "vasinh" "src/internal/math/double_math.cpp:179" [Cpu; Mkl; Mpi] [In Func; Any; If ([Any; Throw]) ([Any]); Out Func]; (* src/internal/math/double_math.cpp:179-204 *)
  F "vasinh" "src/internal/math/double_math.cpp:179" [Gpu] [In Func; Any; Out Func]; (* src/internal/math/double_math.cpp:179-204 *)
  F "vtan" "src/internal/math/double_math.cpp:209" [Cpu; Mkl; Mpi] [In Func; Any; If ([Any; Throw]) ([Any]); Out Func]; (* src/internal/math/double_math.cpp:209-234 *)
  F "vtan" "src/internal/math/double_math.cpp:209" [Gpu] [In Func; Any; Out Func]; (* src/internal/math/double_math.cpp:209-234 *)
  F "vtanh" "src/internal/math/double_math.cpp:236" [Cpu; Mkl; Mpi] [In Func; Any; If ([Any; Throw]) ([Any]); Out Func]; (* src/internal/math/double_math.cpp:236-261 *)
  F "vtanh" "src/internal/math/double_math.cpp:236" [Gpu] [In Func; Any; Out Func]; (* src/internal/math/double_math.cpp:236-261 *)
  F "vatan" "src/internal/math/double_math.cpp:263" [Cpu; Mkl; Mpi] [In Func; Any; If ([Any; Throw]) ([Any]); Out Func]; (* src/internal/math/double_math.cpp:263-288 *)
  F "vatan" "src/internal/math/double_math.cpp:263" [Gpu] [In Func; Any; Out Func]; (* src/internal/math/double_math.cpp:263-288 *)
  F "vatanh" "src/internal/math/double_math.cpp:289" [Cpu; Mkl; Mpi] [In Func; Any; If ([Any; Throw]) ([Any]); Out Func]; (* src/internal/math/double_math.cpp:289-314 *)
  F "vatanh" "src/internal/math/double_math.cpp:289" [Gpu] [In Func; Any; Out Func]; (* src/internal/math/double_math.cpp:289-314 *)
  F "vceil" "src/internal/math/double_math.cpp:319" [Cpu; Mkl; Mpi] [In Func; Any; If ([Any; Throw]) ([Any]); Out Func]; (* src/internal/math/double_math.cpp:319-344 *)
  F "vceil" "src/internal/math/double_math.cpp:319" [Gpu] [In Func; Any; Out Func]; (* src/internal/math/double_math.cpp:319-344 *)
  F "vfloor" "src/internal/math/double_math.cpp:346" [Cpu; Mkl; Mpi] [In Func; Any; If ([Any; Throw]) ([Any]); Out Func]; (* src/internal/math/double_math.cpp:346-371 *)
  F "vfloor" "src/internal/math/double_math.cpp:346" [Gpu] [In Func; Any; Out Func]; (* src/internal/math/double_math.cpp:346-371 *)
  F "vsign" "src/internal/math/double_math.cpp:376" [Cpu; Mkl; Mpi] [In Func; Any; If ([Any; Throw]) ([Any]); Out Func]; (* src/internal/math/double_math.cpp:376-397 *)
  F "vsign" "src/internal/math/double_math.cpp:376" [Gpu] [In Func; Any; Out Func]; (* src/internal/math/double_math.cpp:376-397 *)
  F "vexp" "src/internal/math/double_math.cpp:402" [Cpu; Mkl; Mpi] [In Func; Any; If ([Any; Throw]) ([Any]); Out Func]; (* src/internal/math/double_math.cpp:402-427 *)
  F "vexp" "src/internal/math/double_math.cpp:402" [Gpu] [In Func; Any; Out Func]; (* src/internal/math/double_math.cpp:402-427 *)
  F "vmax" "src/internal/math/double_math.cpp:432" [Cpu; Mkl; Mpi] [In Func; Any; If ([Any; Throw]) ([Any]); Out Func; Any; Return]; (* src/internal/math/double_math.cpp:432-460 *)
  F "vmax" "src/internal/math/double_math.cpp:432" [Gpu] [In Func; Any; Out Func; Any; Return]; (* src/internal/math/double_math.cpp:432-460 *)
  F "vmax" "src/internal/math/double_math.cpp:462" [Cpu; Mkl; Mpi] [In Func; Any; If ([Any; Throw]) ([Any]); Out Func]; (* src/internal/math/double_math.cpp:462-484 *)
  F "vmax" "src/internal/math/double_math.cpp:462" [Gpu] [In Func; Any; Out Func] (* src/internal/math/double_math.cpp:462-484 *)
].

Definition functions_3 : list func := [
  F "vmax" "src/internal/math/double_math.cpp:486" [Cpu; Mkl; Mpi] [In Func; Any; If ([Any; Throw]) ([Any]); Out Func]; (* src/internal/math/double_math.cpp:486-508 *)
  F "vmax" "src/internal/math/double_math.cpp:486" [Gpu] [In Func; Any; Out Func]; (* src/internal/math/double_math.cpp:486-508 *)
  F "vmin" "src/internal/math/double_math.cpp:513" [Cpu; Mkl; Mpi] [In Func; Any; If ([Any; Throw]) ([Any]); Out Func; Any; Return]; (* src/internal/math/double_math.cpp:513-541 *)
  F "vmin" "src/internal/math/double_math.cpp:513" [Gpu] [In Func; Any; Out Func; Any; Return]; (* src/internal/math/double_math.cpp:513-541 *)
  F "vmin" "src/internal/math/double_math.cpp:543" [Cpu; Mkl; Mpi] [In Func; Any; If ([Any; Throw]) ([Any]); Out Func]; (* src/internal/math/double_math.cpp:543-565 *)
  F "vmin" "src/internal/math/double_math.cpp:543" [Gpu] [In Func; Any; Out Func]; (* src/internal/math/double_math.cpp:543-565 *)
  F "vmin" "src/internal/math/double_math.cpp:567" [Cpu; Mkl; Mpi] [In Func; Any; If ([Any; Throw]) ([Any]); Out Func]; (* src/internal/math/double_math.cpp:567-589 *)
  F "vmin" "src/internal/math/double_math.cpp:567" [Gpu] [In Func; Any; Out Func]; (* src/internal/math/double_math.cpp:567-589 *)
  F "valo" "src/internal/math/double_math.cpp:594" [Cpu; Mkl; Mpi] [In Func; Any; If ([Any; Throw]) ([Any]); Out Func]; (* src/internal/math/double_math.cpp:594-618 *)
  F "valo" "src/internal/math/double_math.cpp:594" [Gpu] [In Func; Any; Out Func]; (* src/internal/math/double_math.cpp:594-618 *)
  F "vsqrt" "src/internal/math/float_math.cpp:10" [Cpu; Mkl; Mpi] [In Func; Any; If ([Any; Throw]) ([Any]); Out Func]; (* src/internal/math/float_math.cpp:10-35 *)
  F "vsqrt" "src/internal/math/float_math.cpp:10" [Gpu] [In Func; Any; Out Func]; (* src/internal/math/float_math.cpp:10-35 *)
  F "vpow" "src/internal/math/float_math.cpp:40" [Cpu; Mkl; Mpi] [In Func; Any; If ([Any; Throw]) ([Any]); Out Func]; (* src/internal/math/float_math.cpp:40-66 *)
  F "vpow" "src/internal/math/float_math.cpp:40" [Gpu] [In Func; Any; Out Func]; (* src/internal/math/float_math.cpp:40-66 *)
  F "vpow" "src/internal/math/float_math.cpp:68" [Cpu; Mkl; Mpi] [In Func; Any; If ([Any; Throw]) ([Any]); Out Func]; (* src/internal/math/float_math.cpp:68-94 *)
  F "vpow" "src/internal/math/float_math.cpp:68" [Gpu] [In Func; Any; Out Func]; (* src/internal/math/float_math.cpp:68-94 *)
  F "vsin" "src/internal/math/float_math.cpp:99" [Cpu; Mkl; Mpi] [In Func; Any; If ([Any; Throw]) ([Any]); Out Func]; (* src/internal/math/float_math.cpp:99-124 *)
  F "vsin" "src/internal/math/float_math.cpp:99" [Gpu] [In Func; Any; Out Func]; (* src/internal/math/float_math.cpp:99-124 *)
  F "vsinh" "src/internal/math/float_math.cpp:126" [Cpu; Mkl; Mpi] [In Func; Any; If ([Any; Throw]) ([Any]); Out Func]; (* src/internal/math/float_math.cpp:126-151 *)
  F "vsinh" "src/internal/math/float_math.cpp:126" [Gpu] [In Func; Any; Out Func]; (* src/internal/math/float_math.cpp:126-151 *)
  F "vasin" "src/internal/math/float_math.cpp:153" [Cpu; Mkl; Mpi] [In Func; Any; If ([Any; Throw]) ([Any]); Out Func]; (* src/internal/math/float_math.cpp:153-178 *)
  F "vasin" "src/internal/math/float_math.cpp:153" [Gpu] [In Func; Any; Out Func]; (* src/internal/math/float_math.cpp:153-178 *)
  F "vasinh" "src/internal/math/float_math.cpp:179" [Cpu; Mkl; Mpi] [In Func; Any; If ([Any; Throw]) ([Any]); Out Func]; (* src/internal/math/float_math.cpp:179-204 *)
  F "vasinh" "src/internal/math/float_math.cpp:179" [Gpu] [In Func; Any; Out Func]; (* src/internal/math/float_math.cpp:179-204 *)
  F "vtan" "src/internal/math/float_math.cpp:209" [Cpu; Mkl; Mpi] [In Func; Any; If ([Any; Throw]) ([Any]); Out Func]; (* src/internal/math/float_math.cpp:209-234 *)
  F "vtan" "src/internal/math/float_math.cpp:209" [Gpu] [In Func; Any; Out Func]; (* src/internal/math/float_math.cpp:209-234 *)
  F "vtanh" "src/internal/math/float_math.cpp:236" [Cpu; Mkl; Mpi] [In Func; Any; If ([Any; Throw]) ([Any]); Out Func]; (* src/internal/math/float_math.cpp:236-261 *)
  F "vtanh" "src/internal/math/float_math.cpp:236" [Gpu] [In Func; Any; Out Func]; (* src/internal/math/float_math.cpp:236-261 *)
  F "vatan" "src/internal/math/float_math.cpp:263" [Cpu; Mkl; Mpi] [In Func; Any; If ([Any; Throw]) ([Any]); Out Func]; (* src/internal/math/float_math.cpp:263-288 *)
  F "vatan" "src/internal/math/float_math.cpp:263" [Gpu] [In Func; Any; Out Func]; (* src/internal/math/float_math.cpp:263-288 *)
  F "vatanh" "src/internal/math/float_math.cpp:289" [Cpu; Mkl; Mpi] [In Func; Any; If ([Any; Throw]) ([Any]); Out Func]; (* src/internal/math/float_math.cpp:289-314 *)
  F "vatanh" "src/internal/math/float_math.cpp:289" [Gpu] [In Func; Any; Out Func]; (* src/internal/math/float_math.cpp:289-314 *)
  F "vceil" "src/internal/math/float_math.cpp:319" [Cpu; Mkl; Mpi] [In Func; Any; If ([Any; Throw]) ([Any]); Out Func]; (* src/internal/math/float_math.cpp:319-344 *)
  F "vceil" "src/internal/math/float_math.cpp:319" [Gpu] [In Func; Any; Out Func]; (* src/internal/math/float_math.cpp:319-344 *)
  F "vfloor" "src/internal/math/float_math.cpp:346" [Cpu; Mkl; Mpi] [In Func; Any; If ([Any; Throw]) ([Any]); Out Func]; (* src/internal/math/float_math.cpp:346-371 *)
  F "vfloor" "src/internal/math/float_math.cpp:346" [Gpu] [In Func; Any; Out Func]; (* src/internal/math/float_math.cpp:346-371 *)
  F "vsign" "src/internal/math/float_math.cpp:376" [Cpu; Mkl; Mpi] [In Func; Any; If ([Any; Throw]) ([Any]); Out Func]; (* src/internal/math/float_math.cpp:376-397 *)
  F "vsign" "src/internal/math/float_math.cpp:376" [Gpu] [In Func; Any; Out Func]; (* src/internal/math/float_math.cpp:376-397 *)
  F "vexp" "src/internal/math/float_math.cpp:402" [Cpu; Mkl; Mpi] [In Func; Any; If ([Any; Throw]) ([Any]); Out Func]; (* src/internal/math/float_math.cpp:402-427 *)
  F "vexp" "src/internal/math/float_math.cpp:402" [Gpu] [In Func; Any; Out Func]; (* src/internal/math/float_math.cpp:402-427 *)
  F "vmax" "src/internal/math/float_math.cpp:432" [Cpu; Mkl; Mpi] [In Func; Any; If ([Any; Throw]) ([Any]); Out Func; Any; Return]; (* src/internal/math/float_math.cpp:432-460 *)
  F "vmax" "src/internal/math/float_math.cpp:432" [Gpu] [In Func; Any; Out Func; Any; Return]; (* src/internal/math/float_math.cpp:432-460 *)
  F "vmax" "src/internal/math/float_math.cpp:462" [Cpu; Mkl; Mpi] [In Func; Any; If ([Any; Throw]) ([Any]); Out Func]; (* src/internal/math/float_math.cpp:462-484 *)
  F "vmax" "src/internal/math/float_math.cpp:462" [Gpu] [In Func; Any; Out Func]; (* src/internal/math/float_math.cpp:462-484 *)
  F "vmax" "src/internal/math/float_math.cpp:486" [Cpu; Mkl; Mpi] [In Func; Any; If ([Any; Throw]) ([Any]); Out Func]; (* src/internal/math/float_math.cpp:486-508 *)
  F "vmax" "src/internal/math/float_math.cpp:486" [Gpu] [In Func; Any; Out Func]; (* src/internal/math/float_math.cpp:486-508 *)
  F "vmin" "src/internal/math/float_math.cpp:513" [Cpu; Mkl; Mpi] [In Func; Any; If ([Any; Throw]) ([Any]); Out Func; Any; Return]; (* src/internal/math/float_math.cpp:513-541 *)
  F "vmin" "src/internal/math/float_math.cpp:513" [Gpu] [In Func; Any; Out Func; Any; Return]; (* src/internal/math/float_math.cpp:513-541 *)
  F "vmin" "src/internal/math/float_math.cpp:543" [Cpu; Mkl; Mpi] [In Func; Any; If ([Any; Throw]) ([Any]); Out Func]; (* src/internal/math/float_math.cpp:543-565 *)
  F "vmin" "src/internal/math/float_math.cpp:543" [Gpu] [In Func; Any; Out Func]; (* src/internal/math/float_math.cpp:543-565 *)
  F "vmin" "src/internal/math/float_math.cpp:567" [Cpu; Mkl; Mpi] [In Func; Any; If ([Any; Throw]) ([Any]); Out Func]; (* src/internal/math/float_math.cpp:567-589 *)
  F "vmin" "src/internal/math/float_math.cpp:567" [Gpu] [In Func; Any; Out Func]; (* src/internal/math/float_math.cpp:567-589 *)
  F "valo" "src/internal/math/float_math.cpp:594" [Cpu; Mkl; Mpi] [In Func; Any; If ([Any; Throw]) ([Any]); Out Func]; (* src/internal/math/float_math.cpp:594-618 *)
  F "valo" "src/internal/math/float_math.cpp:594" [Gpu] [In Func; Any; Out Func]; (* src/internal/math/float_math.cpp:594-618 *)
  F "vhash" "src/internal/math/integer_math.cpp:12" [Cpu; Mkl; Mpi] [In Func; Any; If ([Any; Throw]) ([Any]); Out Func; Any; Return]; (* src/internal/math/integer_math.cpp:12-39 *)
  F "vhash" "src/internal/math/integer_math.cpp:12" [Gpu] [In Func; Any; Out Func; Any; Return]; (* src/internal/math/integer_math.cpp:12-39 *)
  F "vhash" "src/internal/math/integer_math.cpp:41" [Cpu; Mkl; Mpi] [In Func; Any; If ([Any; Throw]) ([Any]); Out Func; Any; Return]; (* src/internal/math/integer_math.cpp:41-68 *)
  F "vhash" "src/internal/math/integer_math.cpp:41" [Gpu] [In Func; Any; Out Func; Any; Return]; (* src/internal/math/integer_math.cpp:41-68 *)
  F "Bcast_core" "src/mpi/Bcast.hpp:7" [Cpu; Mkl; Gpu] [In Util; Out Util]; (* src/mpi/Bcast.hpp:7-16 *)
  F "Bcast_core" "src/mpi/Bcast.hpp:7" [Mpi] [In Util; Any; Out Util]; (* src/mpi/Bcast.hpp:7-16 *)
  F "Bcast_core" "src/mpi/Bcast.hpp:19" [Cpu; Mkl; Gpu] [In Util; Out Util]; (* src/mpi/Bcast.hpp:19-30 *)
  F "Bcast_core" "src/mpi/Bcast.hpp:19" [Mpi] [In Util; Any; Out Util]; (* src/mpi/Bcast.hpp:19-30 *)
  F "Bcast_core" "src/mpi/Bcast.hpp:33" [Cpu; Mkl; Gpu] [In Util; Out Util]; (* src/mpi/Bcast.hpp:33-44 *)
  F "Bcast_core" "src/mpi/Bcast.hpp:33" [Mpi] [In Util; Any; Out Util]; (* src/mpi/Bcast.hpp:33-44 *)
  F "Gather_core" "src/mpi/Gather.hpp:7" [Cpu; Mkl; Gpu] [In Util; Out Util]; (* src/mpi/Gather.hpp:7-21 *)
  F "Gather_core" "src/mpi/Gather.hpp:7" [Mpi] [In Util; Any; Out Util]; (* src/mpi/Gather.hpp:7-21 *)
  F "Gather_core" "src/mpi/Gather.hpp:24" [Cpu; Mkl; Gpu] [In Util; Out Util]; (* src/mpi/Gather.hpp:24-38 *)
  F "Gather_core" "src/mpi/Gather.hpp:24" [Mpi] [In Util; Any; Out Util]; (* src/mpi/Gather.hpp:24-38 *)
  F "Scatter_core" "src/mpi/Scatter.hpp:7" [Cpu; Mkl; Gpu] [In Util; Out Util]; (* src/mpi/Scatter.hpp:7-21 *)
  F "Scatter_core" "src/mpi/Scatter.hpp:7" [Mpi] [In Util; Any; Out Util]; (* src/mpi/Scatter.hpp:7-21 *)
  F "Scatter_core" "src/mpi/Scatter.hpp:24" [Cpu; Mkl; Gpu] [In Util; Out Util]; (* src/mpi/Scatter.hpp:24-38 *)
  F "Scatter_core" "src/mpi/Scatter.hpp:24" [Mpi] [In Util; Any; Out Util]; (* src/mpi/Scatter.hpp:24-38 *)
  F "Allreduce_core" "src/mpi/allreduce.hpp:6" [Cpu; Mkl; Gpu] [In Util; Out Util; Any; Return]; (* src/mpi/allreduce.hpp:6-16 *)
  F "Allreduce_core" "src/mpi/allreduce.hpp:6" [Mpi] [In Util; Any; Out Util; Any; Return]; (* src/mpi/allreduce.hpp:6-16 *)
  F "Isend_core" "src/mpi/isend_irecv.hpp:12" [Cpu; Mkl; Gpu] [In Util; Out Util]; (* src/mpi/isend_irecv.hpp:12-25 *)
  F "Isend_core" "src/mpi/isend_irecv.hpp:12" [Mpi] [In Util; Any; Out Util]; (* src/mpi/isend_irecv.hpp:12-25 *)
  F "Isend_core" "src/mpi/isend_irecv.hpp:28" [Cpu; Mkl; Gpu] [In Util; Out Util]; (* src/mpi/isend_irecv.hpp:28-42 *)
  F "Isend_core" "src/mpi/isend_irecv.hpp:28" [Mpi] [In Util; Any; Out Util]; (* src/mpi/isend_irecv.hpp:28-42 *)
  F "Isend_core" "src/mpi/isend_irecv.hpp:45" [Cpu; Mkl; Gpu] [In Util; Out Util]; (* src/mpi/isend_irecv.hpp:45-57 *)
  F "Isend_core" "src/mpi/isend_irecv.hpp:45" [Mpi] [In Util; Any; Out Util]; (* src/mpi/isend_irecv.hpp:45-57 *)
  F "Irecv_core" "src/mpi/isend_irecv.hpp:64" [Cpu; Mkl; Gpu] [In Util; Out Util]; (* src/mpi/isend_irecv.hpp:64-77 *)
  F "Irecv_core" "src/mpi/isend_irecv.hpp:64" [Mpi] [In Util; Any; Out Util]; (* src/mpi/isend_irecv.hpp:64-77 *)
  F "Irecv_core" "src/mpi/isend_irecv.hpp:80" [Cpu; Mkl; Gpu] [In Util; Out Util]; (* src/mpi/isend_irecv.hpp:80-94 *)
  F "Irecv_core" "src/mpi/isend_irecv.hpp:80" [Mpi] [In Util; Any; Out Util]; (* src/mpi/isend_irecv.hpp:80-94 *)
  F "Irecv_core" "src/mpi/isend_irecv.hpp:97" [Cpu; Mkl; Gpu] [In Util; Out Util]; (* src/mpi/isend_irecv.hpp:97-111 *)
  F "Irecv_core" "src/mpi/isend_irecv.hpp:97" [Mpi] [In Util; Any; Out Util]; (* src/mpi/isend_irecv.hpp:97-111 *)
  F "Waitall_core" "src/mpi/isend_irecv.hpp:113" [Cpu; Mkl; Gpu] [In Util; Out Util]; (* src/mpi/isend_irecv.hpp:113-124 *)
  F "Waitall_core" "src/mpi/isend_irecv.hpp:113" [Mpi] [In Util; Any; Out Util]; (* src/mpi/isend_irecv.hpp:113-124 *)
  F "set_comm" "src/mpi/monolish_mpi.cpp:12" [Cpu; Mkl; Mpi; Gpu] [In Util; Any; Out Util]; (* src/mpi/monolish_mpi.cpp:12-17 *)
  F "Init" "src/mpi/monolish_mpi.cpp:19" [Cpu; Mkl; Gpu] [In Util; Out Util]; (* src/mpi/monolish_mpi.cpp:19-29 *)
  F "Init" "src/mpi/monolish_mpi.cpp:19" [Mpi] [In Util; Any; Out Util]; (* src/mpi/monolish_mpi.cpp:19-29 *)
  F "Init" "src/mpi/monolish_mpi.cpp:31" [Cpu; Mkl; Gpu] [In Util; Out Util]; (* src/mpi/monolish_mpi.cpp:31-41 *)
  F "Init" "src/mpi/monolish_mpi.cpp:31" [Mpi] [In Util; Any; Out Util]; (* src/mpi/monolish_mpi.cpp:31-41 *)
  F "Initialized" "src/mpi/monolish_mpi.cpp:43" [Cpu; Mkl; Gpu] [In Util; Out Util; Any; Return]; (* src/mpi/monolish_mpi.cpp:43-54 *)
  F "Initialized" "src/mpi/monolish_mpi.cpp:43" [Mpi] [In Util; Any; Out Util; Any; Return; Out Util; Any; Return]; (* src/mpi/monolish_mpi.cpp:43-54 *)
  F "Finalize" "src/mpi/monolish_mpi.cpp:56" [Cpu; Mkl; Gpu] [In Util; Out Util]; (* src/mpi/monolish_mpi.cpp:56-63 *)
  F "Finalize" "src/mpi/monolish_mpi.cpp:56" [Mpi] [In Util; Any; Out Util]; (* src/mpi/monolish_mpi.cpp:56-63 *)
  F "get_rank" "src/mpi/monolish_mpi.cpp:67" [Cpu; Mkl; Gpu] [In Util; Any; Out Util; Any; Return]; (* src/mpi/monolish_mpi.cpp:67-78 *)
  F "get_rank" "src/mpi/monolish_mpi.cpp:67" [Mpi] [In Util; Any; Out Util; Any; Return; Out Util; Any; Return]; (* src/mpi/monolish_mpi.cpp:67-78 *)
  F "get_size" "src/mpi/monolish_mpi.cpp:80" [Cpu; Mkl; Gpu] [In Util; Any; Out Util; Any; Return]; (* src/mpi/monolish_mpi.cpp:80-91 *)
  F "get_size" "src/mpi/monolish_mpi.cpp:80" [Mpi] [In Util; Any; Out Util; Any; Return; Out Util; Any; Return]; (* src/mpi/monolish_mpi.cpp:80-91 *)
  F "Barrier" "src/mpi/monolish_mpi.cpp:95" [Cpu; Mkl; Gpu] [In Util; Out Util]; (* src/mpi/monolish_mpi.cpp:95-103 *)
  F "Barrier" "src/mpi/monolish_mpi.cpp:95" [Mpi] [In Util; Any; Out Util; Out Util]; (* src/mpi/monolish_mpi.cpp:95-103 *)
  F "Send_core" "src/mpi/send_recv.hpp:12" [Cpu; Mkl; Gpu] [In Util; Out Util]; (* src/mpi/send_recv.hpp:12-21 *)
  F "Send_core" "src/mpi/send_recv.hpp:12" [Mpi] [In Util; Any; Out Util]; (* src/mpi/send_recv.hpp:12-21 *)
  F "Send_core" "src/mpi/send_recv.hpp:24" [Cpu; Mkl; Gpu] [In Util; Out Util]; (* src/mpi/send_recv.hpp:24-35 *)
  F "Send_core" "src/mpi/send_recv.hpp:24" [Mpi] [In Util; Any; Out Util]; (* src/mpi/send_recv.hpp:24-35 *)
  F "Send_core" "src/mpi/send_recv.hpp:38" [Cpu; Mkl; Gpu] [In Util; Out Util]; (* src/mpi/send_recv.hpp:38-49 *)
  F "Send_core" "src/mpi/send_recv.hpp:38" [Mpi] [In Util; Any; Out Util]; (* src/mpi/send_recv.hpp:38-49 *)
  F "Recv_core" "src/mpi/send_recv.hpp:56" [Cpu; Mkl; Mpi; Gpu] [In Util; Any; Out Util; Any; Return]; (* src/mpi/send_recv.hpp:56-70 *)
  F "Recv_core" "src/mpi/send_recv.hpp:73" [Cpu; Mkl; Mpi; Gpu] [In Util; Any; Out Util; Any; Return]; (* src/mpi/send_recv.hpp:73-89 *)
  F "Recv_core" "src/mpi/send_recv.hpp:92" [Cpu; Mkl; Mpi; Gpu] [In Util; Any; Out Util; Any; Return]; (* src/mpi/send_recv.hpp:92-108 *)
  F "print_all" "src/utils/IO/IO_coo.cpp:17" [Cpu; Mkl; Mpi; Gpu] [In Util; Any; Out Util]; (* src/utils/IO/IO_coo.cpp:17-29 *)
  F "print_all" "src/utils/IO/IO_coo.cpp:33" [Cpu; Mkl; Mpi; Gpu] [In Util; Any; Out Util]; (* src/utils/IO/IO_coo.cpp:33-45 *)
  F "output_mm" "src/utils/IO/IO_coo.cpp:49" [Cpu; Mkl; Mpi; Gpu] [In Util; Any; Out Util]; (* src/utils/IO/IO_coo.cpp:49-65 *)
  F "input_mm" "src/utils/IO/IO_coo.cpp:69" [Cpu; Mkl; Mpi; Gpu] [In Util; Any; Out Util]; (* src/utils/IO/IO_coo.cpp:69-153 *)
  F "print_all" "src/utils/IO/IO_crs.cpp:17" [Cpu; Mkl; Mpi] [In Util; Any; If ([Any; Throw]) ([Any]); Out Util]; (* src/utils/IO/IO_crs.cpp:17-47 *)
  F "print_all" "src/utils/IO/IO_crs.cpp:17" [Gpu] [In Util; Any; Out Util]; (* src/utils/IO/IO_crs.cpp:17-47 *)
  F "print_all" "src/utils/IO/IO_dense.cpp:17" [Cpu; Mkl; Mpi] [In Util; Any; If ([Any; Throw]) ([Any]); Out Util]; (* src/utils/IO/IO_dense.cpp:17-44 *)
  F "print_all" "src/utils/IO/IO_dense.cpp:17" [Gpu] [In Util; Any; Out Util]; (* src/utils/IO/IO_dense.cpp:17-44 *)
  F "print_all" "src/utils/IO/IO_tensor_coo.cpp:18" [Cpu; Mkl; Mpi; Gpu] [In Util; Any; Out Util]; (* src/utils/IO/IO_tensor_coo.cpp:18-32 *)
  F "print_all" "src/utils/IO/IO_tensor_coo.cpp:36" [Cpu; Mkl; Mpi; Gpu] [In Util; Any; Out Util]; (* src/utils/IO/IO_tensor_coo.cpp:36-51 *)
  F "print_all" "src/utils/IO/IO_tensor_crs.cpp:18" [Cpu; Mkl; Mpi] [In Util; Any; If ([Any; Throw]) ([Any]); Out Util]; (* src/utils/IO/IO_tensor_crs.cpp:18-74 *)
  F "print_all" "src/utils/IO/IO_tensor_crs.cpp:18" [Gpu] [In Util; Any; Out Util]; (* src/utils/IO/IO_tensor_crs.cpp:18-74 *)
  F "print_all" "src/utils/IO/IO_tensor_dense.cpp:18" [Cpu; Mkl; Mpi] [In Util; Any; If ([Any; Throw]) ([Any]); Out Util]; (* src/utils/IO/IO_tensor_dense.cpp:18-57 *)
  F "print_all" "src/utils/IO/IO_tensor_dense.cpp:18" [Gpu] [In Util; Any; Out Util]; (* src/utils/IO/IO_tensor_dense.cpp:18-57 *)
  F "print_all" "src/utils/IO/IO_vector.cpp:17" [Cpu; Mkl; Mpi] [In Util; Any; If ([Any; Throw]) ([Any]); Out Util]; (* src/utils/IO/IO_vector.cpp:17-41 *)
  F "print_all" "src/utils/IO/IO_vector.cpp:17" [Gpu] [In Util; Any; Out Util]; (* src/utils/IO/IO_vector.cpp:17-41 *)
  F "print_all" "src/utils/IO/IO_vector.cpp:45" [Cpu; Mkl; Mpi; Gpu] [In Util; Any; If ([Any; Throw]) ([]); Any; Out Util]; (* src/utils/IO/IO_vector.cpp:45-56 *)
  F "print_all" "src/utils/IO/IO_view1D.cpp:14" [Cpu; Mkl; Mpi] [In Util; Any; If ([Any; Throw]) ([Any]); Out Util]; (* src/utils/IO/IO_view1D.cpp:14-36 *)
  F "print_all" "src/utils/IO/IO_view1D.cpp:14" [Gpu] [In Util; Any; Out Util]; (* src/utils/IO/IO_view1D.cpp:14-36 *)
  F "print_all" "src/utils/IO/IO_view1D.cpp:38" [Cpu; Mkl; Mpi] [In Util; Any; If ([Any; Throw]) ([Any]); Out Util]; (* src/utils/IO/IO_view1D.cpp:38-61 *)
  F "print_all" "src/utils/IO/IO_view1D.cpp:38" [Gpu] [In Util; Any; Out Util]; (* src/utils/IO/IO_view1D.cpp:38-61 *)
  F "print_all" "src/utils/IO/IO_view1D.cpp:63" [Cpu; Mkl; Mpi] [In Util; Any; If ([Any; Throw]) ([Any]); Out Util]; (* src/utils/IO/IO_view1D.cpp:63-86 *)
  F "print_all" "src/utils/IO/IO_view1D.cpp:63" [Gpu] [In Util; Any; Out Util]; (* src/utils/IO/IO_view1D.cpp:63-86 *)
  F "print_all" "src/utils/IO/IO_view1D.cpp:88" [Cpu; Mkl; Mpi] [In Util; Any; If ([Any; Throw]) ([Any]); Out Util]; (* src/utils/IO/IO_view1D.cpp:88-110 *)
  F "print_all" "src/utils/IO/IO_view1D.cpp:88" [Gpu] [In Util; Any; Out Util]; (* src/utils/IO/IO_view1D.cpp:88-110 *)
  F "print_all" "src/utils/IO/IO_view1D.cpp:112" [Cpu; Mkl; Mpi] [In Util; Any; If ([Any; Throw]) ([Any]); Out Util]; (* src/utils/IO/IO_view1D.cpp:112-135 *)
  F "print_all" "src/utils/IO/IO_view1D.cpp:112" [Gpu] [In Util; Any; Out Util]; (* src/utils/IO/IO_view1D.cpp:112-135 *)
  F "print_all" "src/utils/IO/IO_view1D.cpp:137" [Cpu; Mkl; Mpi] [In Util; Any; If ([Any; Throw]) ([Any]); Out Util]; (* src/utils/IO/IO_view1D.cpp:137-160 *)
  F "print_all" "src/utils/IO/IO_view1D.cpp:137" [Gpu] [In Util; Any; Out Util]; (* src/utils/IO/IO_view1D.cpp:137-160 *)
  F "print_all" "src/utils/IO/IO_view_dense.cpp:14" [Cpu; Mkl; Mpi] [In Util; Any; If ([Any; Throw]) ([Any]); Out Util]; (* src/utils/IO/IO_view_dense.cpp:14-42 *)
  F "print_all" "src/utils/IO/IO_view_dense.cpp:14" [Gpu] [In Util; Any; Out Util]; (* src/utils/IO/IO_view_dense.cpp:14-42 *)
  F "print_all" "src/utils/IO/IO_view_tensor_dense.cpp:14" [Cpu; Mkl; Mpi] [In Util; Any; If ([Any; Throw]) ([Any]); Out Util]; (* src/utils/IO/IO_view_tensor_dense.cpp:14-54 *)
  F "print_all" "src/utils/IO/IO_view_tensor_dense.cpp:14" [Gpu] [In Util; Any; Out Util]; (* src/utils/IO/IO_view_tensor_dense.cpp:14-54 *)
  F "sort" "src/utils/at_insert_sort/at_insert_sort_coo.cpp:119" [Cpu; Mkl; Mpi; Gpu] [In Util; Any; Out Util]; (* src/utils/at_insert_sort/at_insert_sort_coo.cpp:119-144 *)
  F "sort" "src/utils/at_insert_sort/at_insert_sort_tensor_coo.cpp:107" [Cpu; Mkl; Mpi; Gpu] [In Util; Any; Out Util]; (* src/utils/at_insert_sort/at_insert_sort_tensor_coo.cpp:107-131 *)
  F "equal" "src/utils/compare/compare_coo.cpp:9" [Cpu; Mkl; Mpi; Gpu] [In Util; Any; If ([Any; Throw]) ([]); Any; If ([Out Util; Any; Return]) ([]); Any; If ([Out Util; Any; Return]) ([]); Any; If ([Out Util; Any; Return]) ([]); Any; If ([Any; If ([Out Util; Any; Return]) ([]); Any; If ([Out Util; Any; Return]) ([]); Any; If ([Out Util; Any; Return]) ([])]) ([]); Any; If ([Out Util; Any; Return]) ([]); Any; If ([Out Util; Any; Return]) ([]); Any; If ([Out Util; Any; Return]) ([]); Out Util; Any; Return]; (* src/utils/compare/compare_coo.cpp:9-65 *)
  F "operator==" "src/utils/compare/compare_coo.cpp:71" [Cpu; Mkl; Mpi; Gpu] [In Util; Any; Out Util; Any; Return]; (* src/utils/compare/compare_coo.cpp:71-79 *)
  F "operator!=" "src/utils/compare/compare_coo.cpp:83" [Cpu; Mkl; Mpi; Gpu] [In Util; Any; Out Util; Any; Return]; (* src/utils/compare/compare_coo.cpp:83-91 *)
  F "is_same_structure" "src/utils/compare/compare_coo.cpp:101" [Cpu; Mkl; Mpi; Gpu] [In Util; Any; If ([Out Util; Any]) ([]); Any; If ([Out Util; Any; Return]) ([]); Any; If ([Out Util; Any; Return]) ([]); Out Util; Any; Return]; (* src/utils/compare/compare_coo.cpp:101-126 *)
  F "is_same_size" "src/utils/compare/compare_coo.cpp:133" [Cpu; Mkl; Mpi; Gpu] [In Util; Any; If ([Out Util; Any]) ([]); Out Util; Any; Return]; (* src/utils/compare/compare_coo.cpp:133-147 *)
  F "equal" "src/utils/compare/compare_crs.cpp:7" [Cpu; Mkl; Mpi; Gpu] [In Util; Any; If ([Out Util; Any; Return]) ([]); Any; If ([Out Util; Any; Return]) ([]); Any; If ([Out Util; Any; Return]) ([]); Any; If ([Any; If ([Out Util; Any; Return]) ([]); Any; If ([Out Util; Any; Return]) ([]); Any; If ([Out Util; Any; Return]) ([])]) ([Any; If ([Any; If ([Out Util; Any; Return]) ([]); Any; If ([Out Util; Any; Return]) ([]); Any; If ([Out Util; Any; Return]) ([])]) ([])]); Out Util; Any; Return]; (* src/utils/compare/compare_crs.cpp:7-60 *)
  F "operator==" "src/utils/compare/compare_crs.cpp:66" [Cpu; Mkl; Mpi; Gpu] [In Util; Any; Out Util; Any; Return]; (* src/utils/compare/compare_crs.cpp:66-74 *)
  F "operator!=" "src/utils/compare/compare_crs.cpp:78" [Cpu; Mkl; Mpi; Gpu] [In Util; Any; Out Util; Any; Return]; (* src/utils/compare/compare_crs.cpp:78-86 *)
  F "is_same_structure" "src/utils/compare/compare_crs.cpp:96" [Cpu; Mkl; Mpi; Gpu] [In Util; Any; If ([Out Util; Any]) ([]); Any; If ([Out Util; Any; Return]) ([]); Out Util; Any; Return]; (* src/utils/compare/compare_crs.cpp:96-115 *)
  F "is_same_size" "src/utils/compare/compare_crs.cpp:122" [Cpu; Mkl; Mpi; Gpu] [In Util; Any; If ([Out Util; Any]) ([]); Out Util; Any; Return]; (* src/utils/compare/compare_crs.cpp:122-136 *)
  F "equal" "src/utils/compare/compare_dense.cpp:9" [Cpu; Mkl; Mpi; Gpu] [In Util; Any; If ([Any; Return]) ([]); Any; If ([Any; Return]) ([]); Any; If ([Any; Return]) ([]); Any; If ([Any; Return]) ([]); Any; If ([Any; If ([Any; Return]) ([])]) ([Any; If ([Any; If ([Any; Return]) ([])]) ([])]); Out Util; Any; Return]; (* src/utils/compare/compare_dense.cpp:9-41 *)
  F "operator==" "src/utils/compare/compare_dense.cpp:47" [Cpu; Mkl; Mpi; Gpu] [In Util; Any; Out Util; Any; Return]; (* src/utils/compare/compare_dense.cpp:47-55 *)
  F "operator!=" "src/utils/compare/compare_dense.cpp:59" [Cpu; Mkl; Mpi; Gpu] [In Util; Any; Out Util; Any; Return]; (* src/utils/compare/compare_dense.cpp:59-67 *)
  F "is_same_structure" "src/utils/compare/compare_dense.cpp:77" [Cpu; Mkl; Mpi; Gpu] [In Util; Any; If ([Out Util; Any]) ([]); Out Util; Any; Return]; (* src/utils/compare/compare_dense.cpp:77-91 *)
  F "is_same_structure" "src/utils/compare/compare_dense.cpp:98" [Cpu; Mkl; Mpi; Gpu] [In Util; Any; If ([Out Util; Any]) ([]); Out Util; Any; Return]; (* src/utils/compare/compare_dense.cpp:98-112 *)
  F "is_same_structure" "src/utils/compare/compare_dense.cpp:131" [Cpu; Mkl; Mpi; Gpu] [In Util; Any; If ([Out Util; Any]) ([]); Out Util; Any; Return]; (* src/utils/compare/compare_dense.cpp:131-145 *)
  F "is_same_structure" "src/utils/compare/compare_dense.cpp:164" [Cpu; Mkl; Mpi; Gpu] [In Util; Any; If ([Out Util; Any]) ([]); Out Util; Any; Return]; (* src/utils/compare/compare_dense.cpp:164-178 *)
  F "is_same_size" "src/utils/compare/compare_dense.cpp:233" [Cpu; Mkl; Mpi; Gpu] [In Util; Any; If ([Out Util; Any]) ([]); Out Util; Any; Return]; (* src/utils/compare/compare_dense.cpp:233-247 *)
  F "is_same_size" "src/utils/compare/compare_dense.cpp:254" [Cpu; Mkl; Mpi; Gpu] [In Util; Any; If ([Out Util; Any]) ([]); Out Util; Any; Return]; (* src/utils/compare/compare_dense.cpp:254-268 *)
  F "is_same_size" "src/utils/compare/compare_dense.cpp:285" [Cpu; Mkl; Mpi; Gpu] [In Util; Any; If ([Out Util; Any]) ([]); Out Util; Any; Return]; (* src/utils/compare/compare_dense.cpp:285-299 *)
  F "is_same_size" "src/utils/compare/compare_dense.cpp:316" [Cpu; Mkl; Mpi; Gpu] [In Util; Any; If ([Out Util; Any]) ([]); Out Util; Any; Return]; (* src/utils/compare/compare_dense.cpp:316-330 *)
  F "is_same_structure" "src/utils/compare/compare_linearoperator.cpp:9" [Cpu; Mkl; Mpi; Gpu] [In Util; Any; If ([Out Util; Any]) ([]); Out Util; Any; Return]; (* src/utils/compare/compare_linearoperator.cpp:9-24 *)
  F "is_same_size" "src/utils/compare/compare_linearoperator.cpp:31" [Cpu; Mkl; Mpi; Gpu] [In Util; Any; If ([Out Util; Any]) ([]); Out Util; Any; Return]; (* src/utils/compare/compare_linearoperator.cpp:31-46 *)
  F "equal" "src/utils/compare/compare_tensor_coo.cpp:9" [Cpu; Mkl; Mpi; Gpu] [In Util; Any; If ([Out Util; Any; Return]) ([]); Any; Loop ([Any; If ([Out Util; Any; Return]) ([])]); Any; If ([Out Util; Any; Return]) ([]); Any; If ([Any; If ([Out Util; Any; Return]) ([])]) ([]); Any; If ([Out Util; Any; Return]) ([]); Any; Loop ([Any; If ([Out Util; Any; Return]) ([]); Any; If ([Out Util; Any; Return]) ([])]); Out Util; Any; Return]; (* src/utils/compare/compare_tensor_coo.cpp:9-55 *)
  F "operator==" "src/utils/compare/compare_tensor_coo.cpp:62" [Cpu; Mkl; Mpi; Gpu] [In Util; Any; Out Util; Any; Return]; (* src/utils/compare/compare_tensor_coo.cpp:62-71 *)
  F "operator!=" "src/utils/compare/compare_tensor_coo.cpp:77" [Cpu; Mkl; Mpi; Gpu] [In Util; Any; Out Util; Any; Return]; (* src/utils/compare/compare_tensor_coo.cpp:77-86 *)
  F "is_same_structure" "src/utils/compare/compare_tensor_coo.cpp:98" [Cpu; Mkl; Mpi; Gpu] [In Util; Any; If ([Out Util; Any]) ([]); Any; Loop ([Any; If ([Out Util; Any; Return]) ([])]); Out Util; Any; Return]; (* src/utils/compare/compare_tensor_coo.cpp:98-120 *)
  F "is_same_size" "src/utils/compare/compare_tensor_coo.cpp:127" [Cpu; Mkl; Mpi; Gpu] [In Util; Any; If ([Out Util; Any]) ([]); Out Util; Any; Return]; (* src/utils/compare/compare_tensor_coo.cpp:127-142 *)
  F "equal" "src/utils/compare/compare_tensor_crs.cpp:9" [Cpu; Mkl; Mpi; Gpu] [In Util; Any; If ([Out Util; Any; Return]) ([]); Any; Loop ([Any; If ([Out Util; Any; Return]) ([])]); Any; If ([Out Util; Any; Return]) ([]); Any; If ([Any; If ([Out Util; Any; Return]) ([]); Any; Loop ([Any; If ([Out Util; Any; Return]) ([])]); Any; Loop ([Any; If ([Out Util; Any; Return]) ([])])]) ([Any; If ([Any; If ([Out Util; Any; Return]) ([]); Any; Loop ([Any; If ([Out Util; Any; Return]) ([])]); Any; Loop ([Any; If ([Out Util; Any; Return]) ([])])]) ([])]); Out Util; Any; Return]; (* src/utils/compare/compare_tensor_crs.cpp:9-73 *)
  F "operator==" "src/utils/compare/compare_tensor_crs.cpp:79" [Cpu; Mkl; Mpi; Gpu] [In Util; Any; Out Util; Any; Return]; (* src/utils/compare/compare_tensor_crs.cpp:79-88 *)
  F "operator!=" "src/utils/compare/compare_tensor_crs.cpp:94" [Cpu; Mkl; Mpi; Gpu] [In Util; Any; Out Util; Any; Return]; (* src/utils/compare/compare_tensor_crs.cpp:94-103 *)
  F "is_same_structure" "src/utils/compare/compare_tensor_crs.cpp:115" [Cpu; Mkl; Mpi; Gpu] [In Util; Any; If ([Out Util; Any; Return]) ([]); Any; Loop ([Any; If ([Out Util; Any; Return]) ([])]); Any; If ([Out Util; Any; Return]) ([]); Out Util; Any; Return]; (* src/utils/compare/compare_tensor_crs.cpp:115-141 *)
  F "is_same_size" "src/utils/compare/compare_tensor_crs.cpp:148" [Cpu; Mkl; Mpi; Gpu] [In Util; Any; If ([Out Util; Any; Return]) ([]); Any; Loop ([Any; If ([Out Util; Any; Return]) ([])]); Out Util; Any; Return]; (* src/utils/compare/compare_tensor_crs.cpp:148-169 *)
  F "equal" "src/utils/compare/compare_tensor_dense.cpp:9" [Cpu; Mkl; Mpi; Gpu] [In Util; Any; If ([Any; Return]) ([]); Any; Loop ([Any; If ([Any; Return]) ([])]); Any; If ([Any; Return]) ([]); Any; If ([Any; If ([Any; Return]) ([])]) ([Any; If ([Any; If ([Any; Return]) ([])]) ([])]); Out Util; Any; Return]; (* src/utils/compare/compare_tensor_dense.cpp:9-40 *)
  F "operator==" "src/utils/compare/compare_tensor_dense.cpp:46" [Cpu; Mkl; Mpi; Gpu] [In Util; Any; Out Util; Any; Return]; (* src/utils/compare/compare_tensor_dense.cpp:46-55 *)
  F "operator!=" "src/utils/compare/compare_tensor_dense.cpp:61" [Cpu; Mkl; Mpi; Gpu] [In Util; Any; Out Util; Any; Return]; (* src/utils/compare/compare_tensor_dense.cpp:61-70 *)
  F "is_same_structure" "src/utils/compare/compare_tensor_dense.cpp:82" [Cpu; Mkl; Mpi; Gpu] [In Util; Any; If ([Out Util; Any]) ([]); Out Util; Any; Return]; (* src/utils/compare/compare_tensor_dense.cpp:82-97 *)
  F "is_same_structure" "src/utils/compare/compare_tensor_dense.cpp:104" [Cpu; Mkl; Mpi; Gpu] [In Util; Any; If ([Out Util; Any]) ([]); Out Util; Any; Return]; (* src/utils/compare/compare_tensor_dense.cpp:104-119 *)
  F "is_same_structure" "src/utils/compare/compare_tensor_dense.cpp:140" [Cpu; Mkl; Mpi; Gpu] [In Util; Any; If ([Out Util; Any]) ([]); Out Util; Any; Return]; (* src/utils/compare/compare_tensor_dense.cpp:140-155 *)
  F "is_same_structure" "src/utils/compare/compare_tensor_dense.cpp:176" [Cpu; Mkl; Mpi; Gpu] [In Util; Any; If ([Out Util; Any]) ([]); Out Util; Any; Return]; (* src/utils/compare/compare_tensor_dense.cpp:176-191 *)
  F "is_same_size" "src/utils/compare/compare_tensor_dense.cpp:248" [Cpu; Mkl; Mpi; Gpu] [In Util; Any; If ([Out Util; Any]) ([]); Out Util; Any; Return]; (* src/utils/compare/compare_tensor_dense.cpp:248-263 *)
  F "is_same_size" "src/utils/compare/compare_tensor_dense.cpp:270" [Cpu; Mkl; Mpi; Gpu] [In Util; Any; If ([Out Util; Any]) ([]); Out Util; Any; Return]; (* src/utils/compare/compare_tensor_dense.cpp:270-285 *)
  F "is_same_size" "src/utils/compare/compare_tensor_dense.cpp:304" [Cpu; Mkl; Mpi; Gpu] [In Util; Any; If ([Out Util; Any]) ([]); Out Util; Any; Return]; (* src/utils/compare/compare_tensor_dense.cpp:304-319 *)
  F "is_same_size" "src/utils/compare/compare_tensor_dense.cpp:338" [Cpu; Mkl; Mpi; Gpu] [In Util; Any; If ([Out Util; Any]) ([]); Out Util; Any; Return]; (* src/utils/compare/compare_tensor_dense.cpp:338-353 *)
  F "equal_core" "src/utils/compare/compare_vector.cpp:10" [Cpu; Mkl; Mpi; Gpu] [In Util; Any; If ([Any; Return]) ([]); Any; If ([Any; Return]) ([]); Any; If ([Any; If ([Any; Return]) ([])]) ([Any; If ([Any; If ([Any; Return]) ([])]) ([])]); Out Util; Any; Return]; (* src/utils/compare/compare_vector.cpp:10-37 *)
  F "convert" "src/utils/convert/convert_coo.cpp:9" [Cpu; Mkl; Mpi; Gpu] [In Util; Any; Out Util]; (* src/utils/convert/convert_coo.cpp:9-30 *)
  F "convert" "src/utils/convert/convert_coo.cpp:34" [Cpu; Mkl; Mpi; Gpu] [In Util; Any; Out Util]; (* src/utils/convert/convert_coo.cpp:34-59 *)
  F "convert" "src/utils/convert/convert_coo.cpp:63" [Cpu; Mkl; Mpi; Gpu] [In Util; Any; Out Util]; (* src/utils/convert/convert_coo.cpp:63-73 *)
  F "convert" "src/utils/convert/convert_crs.cpp:9" [Cpu; Mkl; Mpi; Gpu] [In Util; Any; Out Util]; (* src/utils/convert/convert_crs.cpp:9-43 *)
  F "convert" "src/utils/convert/convert_crs.cpp:47" [Cpu; Mkl; Mpi; Gpu] [In Util; Any; If ([Any; Throw]) ([Any]); Out Util]; (* src/utils/convert/convert_crs.cpp:47-72 *)
  F "convert" "src/utils/convert/convert_dense.cpp:9" [Cpu; Mkl; Mpi; Gpu] [In Util; Any; Out Util]; (* src/utils/convert/convert_dense.cpp:9-27 *)
  F "convert" "src/utils/convert/convert_dense.cpp:31" [Cpu; Mkl; Mpi] [In Util; Any; Out Util]; (* src/utils/convert/convert_dense.cpp:31-50 *)
  F "convert" "src/utils/convert/convert_dense.cpp:31" [Gpu] [In Util; Any; If ([Any; Throw]) ([]); Any; Out Util] (* src/utils/convert/convert_dense.cpp:31-50 *)
].

Definition functions_4 : list func := [
  F "convert" "src/utils/convert/convert_linearoperator.cpp:16" [Cpu; Mkl; Mpi; Gpu] [In Util; Any; Out Util]; (* src/utils/convert/convert_linearoperator.cpp:16-43 *)
  F "convert" "src/utils/convert/convert_linearoperator.cpp:48" [Cpu; Mkl; Mpi; Gpu] [In Util; Any; Out Util]; (* src/utils/convert/convert_linearoperator.cpp:48-79 *)
  F "convert" "src/utils/convert/convert_linearoperator.cpp:84" [Cpu; Mkl; Mpi; Gpu] [In Util; Any; Out Util]; (* src/utils/convert/convert_linearoperator.cpp:84-115 *)
  F "convert" "src/utils/convert/convert_tensor_coo.cpp:10" [Cpu; Mkl; Mpi; Gpu] [In Util; Any; Out Util]; (* src/utils/convert/convert_tensor_coo.cpp:10-43 *)
  F "convert" "src/utils/convert/convert_tensor_coo.cpp:49" [Cpu; Mkl; Mpi; Gpu] [In Util; Any; Out Util]; (* src/utils/convert/convert_tensor_coo.cpp:49-76 *)
  F "convert" "src/utils/convert/convert_tensor_crs.cpp:10" [Cpu; Mkl; Mpi; Gpu] [In Util; Any; Out Util]; (* src/utils/convert/convert_tensor_crs.cpp:10-65 *)
  F "convert" "src/utils/convert/convert_tensor_crs.cpp:70" [Cpu; Mkl; Mpi; Gpu] [In Util; Any; If ([Any; Throw]) ([Any]); Out Util]; (* src/utils/convert/convert_tensor_crs.cpp:70-101 *)
  F "convert" "src/utils/convert/convert_tensor_crs.cpp:107" [Cpu; Mkl; Mpi; Gpu] [In Util; Any; If ([Any; Throw]) ([Any]); Out Util]; (* src/utils/convert/convert_tensor_crs.cpp:107-133 *)
  F "convert" "src/utils/convert/convert_tensor_dense.cpp:10" [Cpu; Mkl; Mpi] [In Util; Any; Out Util]; (* src/utils/convert/convert_tensor_dense.cpp:10-28 *)
  F "convert" "src/utils/convert/convert_tensor_dense.cpp:10" [Gpu] [In Util; Any; If ([Any; Throw]) ([]); Any; Out Util]; (* src/utils/convert/convert_tensor_dense.cpp:10-28 *)
  F "convert" "src/utils/convert/convert_tensor_dense.cpp:34" [Cpu; Mkl; Mpi; Gpu] [In Util; Any; Out Util]; (* src/utils/convert/convert_tensor_dense.cpp:34-53 *)
  F "convert" "src/utils/convert/convert_tensor_dense.cpp:59" [Cpu; Mkl; Mpi] [In Util; Any; Out Util]; (* src/utils/convert/convert_tensor_dense.cpp:59-79 *)
  F "convert" "src/utils/convert/convert_tensor_dense.cpp:59" [Gpu] [In Util; Any; If ([Any; Throw]) ([]); Any; Out Util]; (* src/utils/convert/convert_tensor_dense.cpp:59-79 *)
  F "convert" "src/utils/convert/convert_tensor_dense.cpp:83" [Cpu; Mkl; Mpi] [In Util; Any; Out Util]; (* src/utils/convert/convert_tensor_dense.cpp:83-101 *)
  F "convert" "src/utils/convert/convert_tensor_dense.cpp:83" [Gpu] [In Util; Any; If ([Any; Throw]) ([]); Any; Out Util]; (* src/utils/convert/convert_tensor_dense.cpp:83-101 *)
  F "COO" "src/utils/coo_constructor.cpp:13" [Cpu; Mkl; Mpi; Gpu] [In Util; Any; Out Util]; (* src/utils/coo_constructor.cpp:13-31 *)
  F "COO" "src/utils/coo_constructor.cpp:37" [Cpu; Mkl; Mpi; Gpu] [In Util; Any; Out Util]; (* src/utils/coo_constructor.cpp:37-61 *)
  F "COO" "src/utils/coo_constructor.cpp:70" [Cpu; Mkl; Mpi; Gpu] [In Util; Any; Out Util]; (* src/utils/coo_constructor.cpp:70-86 *)
  F "COO" "src/utils/coo_constructor.cpp:91" [Cpu; Mkl; Mpi; Gpu] [In Util; Any; Out Util]; (* src/utils/coo_constructor.cpp:91-111 *)
  F "operator=" "src/utils/copy/copy_coo.cpp:10" [Cpu; Mkl; Mpi; Gpu] [In Util; Any; Out Util]; (* src/utils/copy/copy_coo.cpp:10-23 *)
  F "set_ptr" "src/utils/copy/copy_coo.cpp:27" [Cpu; Mkl; Mpi; Gpu] [In Util; Any; Out Util]; (* src/utils/copy/copy_coo.cpp:27-42 *)
  F "set_ptr" "src/utils/copy/copy_coo.cpp:52" [Cpu; Mkl; Mpi; Gpu] [In Util; Any; Out Util]; (* src/utils/copy/copy_coo.cpp:52-67 *)
  F "operator=" "src/utils/copy/copy_crs.cpp:10" [Cpu; Mkl; Mpi; Gpu] [In Util; Any; Out Util]; (* src/utils/copy/copy_crs.cpp:10-24 *)
  F "set_ptr" "src/utils/copy/copy_crs.cpp:28" [Cpu; Mkl; Mpi; Gpu] [In Util; Any; Out Util]; (* src/utils/copy/copy_crs.cpp:28-47 *)
  F "set_ptr" "src/utils/copy/copy_crs.cpp:57" [Cpu; Mkl; Mpi; Gpu] [In Util; Any; Out Util]; (* src/utils/copy/copy_crs.cpp:57-76 *)
  F "operator=" "src/utils/copy/copy_dense.cpp:10" [Cpu; Mkl; Mpi; Gpu] [In Util; Any; Out Util]; (* src/utils/copy/copy_dense.cpp:10-23 *)
  F "operator=" "src/utils/copy/copy_dense.cpp:28" [Cpu; Mkl; Mpi; Gpu] [In Util; Any; Out Util]; (* src/utils/copy/copy_dense.cpp:28-42 *)
  F "operator=" "src/utils/copy/copy_dense.cpp:49" [Cpu; Mkl; Mpi; Gpu] [In Util; Any; Out Util]; (* src/utils/copy/copy_dense.cpp:49-63 *)
  F "operator=" "src/utils/copy/copy_dense.cpp:70" [Cpu; Mkl; Mpi; Gpu] [In Util; Any; Out Util]; (* src/utils/copy/copy_dense.cpp:70-84 *)
  F "set_ptr" "src/utils/copy/copy_dense.cpp:91" [Cpu; Mkl; Mpi; Gpu] [In Util; Any; Out Util]; (* src/utils/copy/copy_dense.cpp:91-103 *)
  F "set_ptr" "src/utils/copy/copy_dense.cpp:109" [Cpu; Mkl; Mpi; Gpu] [In Util; Any; Out Util]; (* src/utils/copy/copy_dense.cpp:109-121 *)
  F "operator=" "src/utils/copy/copy_linearoperator.cpp:8" [Cpu; Mkl; Mpi; Gpu] [In Util; Any; Out Util]; (* src/utils/copy/copy_linearoperator.cpp:8-24 *)
  F "operator=" "src/utils/copy/copy_tensor_coo.cpp:11" [Cpu; Mkl; Mpi; Gpu] [In Util; Any; Out Util]; (* src/utils/copy/copy_tensor_coo.cpp:11-25 *)
  F "set_ptr" "src/utils/copy/copy_tensor_coo.cpp:27" [Cpu; Mkl; Mpi; Gpu] [In Util; Any; Out Util]; (* src/utils/copy/copy_tensor_coo.cpp:27-41 *)
  F "set_ptr" "src/utils/copy/copy_tensor_coo.cpp:51" [Cpu; Mkl; Mpi; Gpu] [In Util; Any; Out Util]; (* src/utils/copy/copy_tensor_coo.cpp:51-65 *)
  F "operator=" "src/utils/copy/copy_tensor_crs.cpp:11" [Cpu; Mkl; Mpi; Gpu] [In Util; Any; Out Util]; (* src/utils/copy/copy_tensor_crs.cpp:11-25 *)
  F "set_ptr" "src/utils/copy/copy_tensor_crs.cpp:29" [Cpu; Mkl; Mpi; Gpu] [In Util; Any; Out Util]; (* src/utils/copy/copy_tensor_crs.cpp:29-47 *)
  F "set_ptr" "src/utils/copy/copy_tensor_crs.cpp:59" [Cpu; Mkl; Mpi; Gpu] [In Util; Any; Out Util]; (* src/utils/copy/copy_tensor_crs.cpp:59-77 *)
  F "operator=" "src/utils/copy/copy_tensor_dense.cpp:11" [Cpu; Mkl; Mpi; Gpu] [In Util; Any; Out Util]; (* src/utils/copy/copy_tensor_dense.cpp:11-25 *)
  F "set_ptr" "src/utils/copy/copy_tensor_dense.cpp:30" [Cpu; Mkl; Mpi; Gpu] [In Util; Any; Out Util]; (* src/utils/copy/copy_tensor_dense.cpp:30-41 *)
  F "set_ptr" "src/utils/copy/copy_tensor_dense.cpp:47" [Cpu; Mkl; Mpi; Gpu] [In Util; Any; Out Util]; (* src/utils/copy/copy_tensor_dense.cpp:47-57 *)
  F "operator=" "src/utils/copy/copy_vector.cpp:10" [Cpu; Mkl; Mpi; Gpu] [In Util; Any; Out Util]; (* src/utils/copy/copy_vector.cpp:10-19 *)
  F "operator=" "src/utils/copy/copy_vector.cpp:24" [Cpu; Mkl; Mpi; Gpu] [In Util; Any; Out Util]; (* src/utils/copy/copy_vector.cpp:24-37 *)
  F "operator=" "src/utils/copy/copy_vector.cpp:42" [Cpu; Mkl; Mpi; Gpu] [In Util; Any; Out Util]; (* src/utils/copy/copy_vector.cpp:42-56 *)
  F "operator=" "src/utils/copy/copy_vector.cpp:61" [Cpu; Mkl; Mpi; Gpu] [In Util; Any; Out Util]; (* src/utils/copy/copy_vector.cpp:61-75 *)
  F "operator=" "src/utils/copy/copy_vector.cpp:81" [Cpu; Mkl; Mpi; Gpu] [In Util; Any; Out Util]; (* src/utils/copy/copy_vector.cpp:81-95 *)
  F "operator=" "src/utils/copy/copy_view1D.cpp:10" [Cpu; Mkl; Mpi; Gpu] [In Util; Any; Out Util]; (* src/utils/copy/copy_view1D.cpp:10-19 *)
  F "operator=" "src/utils/copy/copy_view1D.cpp:34" [Cpu; Mkl; Mpi; Gpu] [In Util; Any; Out Util]; (* src/utils/copy/copy_view1D.cpp:34-53 *)
  F "operator=" "src/utils/copy/copy_view1D.cpp:67" [Cpu; Mkl; Mpi; Gpu] [In Util; Any; Out Util]; (* src/utils/copy/copy_view1D.cpp:67-86 *)
  F "operator=" "src/utils/copy/copy_view1D.cpp:100" [Cpu; Mkl; Mpi; Gpu] [In Util; Any; Out Util]; (* src/utils/copy/copy_view1D.cpp:100-119 *)
  F "operator=" "src/utils/copy/copy_view1D.cpp:133" [Cpu; Mkl; Mpi; Gpu] [In Util; Any; Out Util]; (* src/utils/copy/copy_view1D.cpp:133-152 *)
  F "operator=" "src/utils/copy/copy_view_dense.cpp:9" [Cpu; Mkl; Mpi; Gpu] [In Util; Any; Out Util]; (* src/utils/copy/copy_view_dense.cpp:9-26 *)
  F "operator=" "src/utils/copy/copy_view_dense.cpp:41" [Cpu; Mkl; Mpi; Gpu] [In Util; Any; Out Util]; (* src/utils/copy/copy_view_dense.cpp:41-58 *)
  F "operator=" "src/utils/copy/copy_view_dense.cpp:73" [Cpu; Mkl; Mpi; Gpu] [In Util; Any; Out Util]; (* src/utils/copy/copy_view_dense.cpp:73-90 *)
  F "operator=" "src/utils/copy/copy_view_dense.cpp:105" [Cpu; Mkl; Mpi; Gpu] [In Util; Any; Out Util]; (* src/utils/copy/copy_view_dense.cpp:105-123 *)
  F "operator=" "src/utils/copy/copy_view_tensor_dense.cpp:10" [Cpu; Mkl; Mpi; Gpu] [In Util; Any; Out Util]; (* src/utils/copy/copy_view_tensor_dense.cpp:10-27 *)
  F "operator=" "src/utils/copy/copy_view_tensor_dense.cpp:43" [Cpu; Mkl; Mpi; Gpu] [In Util; Any; Out Util]; (* src/utils/copy/copy_view_tensor_dense.cpp:43-61 *)
  F "operator=" "src/utils/copy/copy_view_tensor_dense.cpp:77" [Cpu; Mkl; Mpi; Gpu] [In Util; Any; Out Util]; (* src/utils/copy/copy_view_tensor_dense.cpp:77-95 *)
  F "operator=" "src/utils/copy/copy_view_tensor_dense.cpp:111" [Cpu; Mkl; Mpi; Gpu] [In Util; Any; Out Util]; (* src/utils/copy/copy_view_tensor_dense.cpp:111-129 *)
  F "band_matrix" "src/utils/create_matrix/band_matrix.cpp:6" [Cpu; Mkl; Mpi; Gpu] [In Util; Any; If ([Any; Throw]) ([]); Any; Out Util; Any; Return]; (* src/utils/create_matrix/band_matrix.cpp:6-35 *)
  F "asym_band_matrix" "src/utils/create_matrix/band_matrix.cpp:44" [Cpu; Mkl; Mpi; Gpu] [In Util; Any; If ([Any; Throw]) ([]); Any; Out Util; Any; Return]; (* src/utils/create_matrix/band_matrix.cpp:44-76 *)
  F "eye" "src/utils/create_matrix/eye.cpp:6" [Cpu; Mkl; Mpi; Gpu] [In Util; Any; Out Util; Any; Return]; (* src/utils/create_matrix/eye.cpp:6-19 *)
  F "frank_matrix" "src/utils/create_matrix/frank.cpp:6" [Cpu; Mkl; Mpi; Gpu] [In Util; Any; Out Util; Any; Return]; (* src/utils/create_matrix/frank.cpp:6-21 *)
  F "laplacian_matrix_2D_5p" "src/utils/create_matrix/laplacian_2D5p.cpp:6" [Cpu; Mkl; Mpi; Gpu] [In Util; Any; Out Util; Any; Return]; (* src/utils/create_matrix/laplacian_2D5p.cpp:6-50 *)
  F "random_structure_matrix" "src/utils/create_matrix/random_structure.cpp:7" [Cpu; Mkl; Mpi; Gpu] [In Util; Any; If ([Any; Throw]) ([]); Any; Out Util; Any; Return]; (* src/utils/create_matrix/random_structure.cpp:7-37 *)
  F "toeplitz_plus_hankel_matrix" "src/utils/create_matrix/toeplitz_plus_hankel.cpp:6" [Cpu; Mkl; Mpi; Gpu] [In Util; Any; Out Util; Any; Return]; (* src/utils/create_matrix/toeplitz_plus_hankel.cpp:6-37 *)
  F "tridiagonal_toeplitz_matrix" "src/utils/create_matrix/tridiagonal_toeplitz.cpp:6" [Cpu; Mkl; Mpi; Gpu] [In Util; Any; Out Util; Any; Return]; (* src/utils/create_matrix/tridiagonal_toeplitz.cpp:6-24 *)
  F "random_structure_tensor" "src/utils/create_tensor/random_tensor.cpp:7" [Cpu; Mkl; Mpi; Gpu] [In Util; Any; If ([Any; Throw]) ([]); Any; Out Util; Any; Return]; (* src/utils/create_tensor/random_tensor.cpp:7-38 *)
  F "random_structure_tensor" "src/utils/create_tensor/random_tensor.cpp:46" [Cpu; Mkl; Mpi; Gpu] [In Util; Any; If ([Any; Throw]) ([]); Any; Out Util; Any; Return]; (* src/utils/create_tensor/random_tensor.cpp:46-79 *)
  F "random_structure_tensor" "src/utils/create_tensor/random_tensor.cpp:87" [Cpu; Mkl; Mpi; Gpu] [In Util; Any; If ([Any; Throw]) ([]); Any; Out Util; Any; Return]; (* src/utils/create_tensor/random_tensor.cpp:87-123 *)
  F "CRS" "src/utils/crs_constructor.cpp:10" [Cpu; Mkl; Mpi; Gpu] [In Util; Any; Out Util]; (* src/utils/crs_constructor.cpp:10-22 *)
  F "CRS" "src/utils/crs_constructor.cpp:26" [Cpu; Mkl; Mpi; Gpu] [In Util; Any; Out Util]; (* src/utils/crs_constructor.cpp:26-43 *)
  F "CRS" "src/utils/crs_constructor.cpp:51" [Cpu; Mkl; Mpi; Gpu] [In Util; Any; Out Util]; (* src/utils/crs_constructor.cpp:51-74 *)
  F "CRS" "src/utils/crs_constructor.cpp:82" [Cpu; Mkl; Mpi; Gpu] [In Util; Any; Out Util]; (* src/utils/crs_constructor.cpp:82-99 *)
  F "CRS" "src/utils/crs_constructor.cpp:109" [Cpu; Mkl; Mpi] [In Util; Any; If ([Any; Throw]) ([]); Any; Out Util]; (* src/utils/crs_constructor.cpp:109-142 *)
  F "CRS" "src/utils/crs_constructor.cpp:109" [Gpu] [In Util; Any; Out Util]; (* src/utils/crs_constructor.cpp:109-142 *)
  F "CRS" "src/utils/crs_constructor.cpp:154" [Cpu; Mkl; Mpi; Gpu] [In Util; Any; Out Util]; (* src/utils/crs_constructor.cpp:154-185 *)
  F "CRS" "src/utils/crs_constructor.cpp:190" [Cpu; Mkl; Mpi; Gpu] [In Util; Any; Out Util]; (* src/utils/crs_constructor.cpp:190-221 *)
  F "Dense" "src/utils/dense_constructor.cpp:12" [Cpu; Mkl; Mpi; Gpu] [In Util; Any; Out Util]; (* src/utils/dense_constructor.cpp:12-21 *)
  F "Dense" "src/utils/dense_constructor.cpp:25" [Cpu; Mkl; Mpi; Gpu] [In Util; Any; Out Util]; (* src/utils/dense_constructor.cpp:25-36 *)
  F "Dense" "src/utils/dense_constructor.cpp:42" [Cpu; Mkl; Mpi; Gpu] [In Util; Any; Out Util]; (* src/utils/dense_constructor.cpp:42-53 *)
  F "Dense" "src/utils/dense_constructor.cpp:59" [Cpu; Mkl; Mpi] [In Util; Any; If ([Any; Throw]) ([]); Out Util]; (* src/utils/dense_constructor.cpp:59-86 *)
  F "Dense" "src/utils/dense_constructor.cpp:59" [Gpu] [In Util; Any; Out Util]; (* src/utils/dense_constructor.cpp:59-86 *)
  F "Dense" "src/utils/dense_constructor.cpp:92" [Cpu; Mkl; Mpi; Gpu] [In Util; Any; Out Util]; (* src/utils/dense_constructor.cpp:92-104 *)
  F "Dense" "src/utils/dense_constructor.cpp:110" [Cpu; Mkl; Mpi; Gpu] [In Util; Any; Out Util]; (* src/utils/dense_constructor.cpp:110-129 *)
  F "Dense" "src/utils/dense_constructor.cpp:135" [Cpu; Mkl; Mpi; Gpu] [In Util; Any; Out Util]; (* src/utils/dense_constructor.cpp:135-154 *)
  F "Dense" "src/utils/dense_constructor.cpp:160" [Cpu; Mkl; Mpi; Gpu] [In Util; Any; Out Util]; (* src/utils/dense_constructor.cpp:160-176 *)
  F "Dense" "src/utils/dense_constructor.cpp:182" [Cpu; Mkl; Mpi; Gpu] [In Util; Any; Out Util]; (* src/utils/dense_constructor.cpp:182-202 *)
  F "Dense" "src/utils/dense_constructor.cpp:207" [Cpu; Mkl; Mpi; Gpu] [In Util; Any; Out Util]; (* src/utils/dense_constructor.cpp:207-227 *)
  F "Dense" "src/utils/dense_constructor.cpp:232" [Cpu; Mkl; Mpi; Gpu] [In Util; Any; Out Util]; (* src/utils/dense_constructor.cpp:232-252 *)
  F "Dense" "src/utils/dense_constructor.cpp:256" [Cpu; Mkl; Mpi; Gpu] [In Util; Any; Out Util]; (* src/utils/dense_constructor.cpp:256-277 *)
  F "Dense" "src/utils/dense_constructor.cpp:283" [Cpu; Mkl; Mpi; Gpu] [In Util; Any; Out Util]; (* src/utils/dense_constructor.cpp:283-304 *)
  F "get_residual_l2_core" "src/utils/equation_utils.cpp:32" [Cpu; Mkl; Mpi; Gpu] [In Util; Any; Out Util; Any; Return]; (* src/utils/equation_utils.cpp:32-43 *)
  F "get_residual_l2_core" "src/utils/equation_utils.cpp:45" [Cpu; Mkl; Mpi; Gpu] [In Util; Any; Out Util; Any; Return]; (* src/utils/equation_utils.cpp:45-56 *)
  F "get_residual_l2_core" "src/utils/equation_utils.cpp:58" [Cpu; Mkl; Mpi; Gpu] [In Util; Any; Out Util; Any; Return]; (* src/utils/equation_utils.cpp:58-70 *)
  F "fill" "src/utils/fill/fill_coo.cpp:9" [Cpu; Mkl; Mpi; Gpu] [In Util; Any; Out Util]; (* src/utils/fill/fill_coo.cpp:9-17 *)
  F "fill" "src/utils/fill/fill_crs.cpp:9" [Cpu; Mkl; Mpi] [In Util; Any; If ([Any; Throw]) ([Any]); Out Util]; (* src/utils/fill/fill_crs.cpp:9-30 *)
  F "fill" "src/utils/fill/fill_crs.cpp:9" [Gpu] [In Util; Any; Out Util]; (* src/utils/fill/fill_crs.cpp:9-30 *)
  F "fill" "src/utils/fill/fill_dense.cpp:9" [Cpu; Mkl; Mpi] [In Util; Any; If ([Any; Throw]) ([Any]); Out Util]; (* src/utils/fill/fill_dense.cpp:9-30 *)
  F "fill" "src/utils/fill/fill_dense.cpp:9" [Gpu] [In Util; Any; Out Util]; (* src/utils/fill/fill_dense.cpp:9-30 *)
  F "fill" "src/utils/fill/fill_tensor_coo.cpp:10" [Cpu; Mkl; Mpi; Gpu] [In Util; Any; Out Util]; (* src/utils/fill/fill_tensor_coo.cpp:10-18 *)
  F "fill" "src/utils/fill/fill_tensor_crs.cpp:9" [Cpu; Mkl; Mpi] [In Util; Any; If ([Any; Throw]) ([Any]); Out Util]; (* src/utils/fill/fill_tensor_crs.cpp:9-30 *)
  F "fill" "src/utils/fill/fill_tensor_crs.cpp:9" [Gpu] [In Util; Any; Out Util]; (* src/utils/fill/fill_tensor_crs.cpp:9-30 *)
  F "fill" "src/utils/fill/fill_tensor_dense.cpp:10" [Cpu; Mkl; Mpi] [In Util; Any; If ([Any; Throw]) ([Any]); Out Util]; (* src/utils/fill/fill_tensor_dense.cpp:10-31 *)
  F "fill" "src/utils/fill/fill_tensor_dense.cpp:10" [Gpu] [In Util; Any; Out Util]; (* src/utils/fill/fill_tensor_dense.cpp:10-31 *)
  F "fill" "src/utils/fill/fill_vector.cpp:9" [Cpu; Mkl; Mpi] [In Util; Any; If ([Any; Throw]) ([Any]); Out Util]; (* src/utils/fill/fill_vector.cpp:9-31 *)
  F "fill" "src/utils/fill/fill_vector.cpp:9" [Gpu] [In Util; Any; Out Util]; (* src/utils/fill/fill_vector.cpp:9-31 *)
  F "fill" "src/utils/fill/fill_view1D.cpp:9" [Cpu; Mkl; Mpi] [In Util; Any; If ([Any; Throw]) ([Any]); Out Util]; (* src/utils/fill/fill_view1D.cpp:9-30 *)
  F "fill" "src/utils/fill/fill_view1D.cpp:9" [Gpu] [In Util; Any; Out Util]; (* src/utils/fill/fill_view1D.cpp:9-30 *)
  F "fill" "src/utils/fill/fill_view_dense.cpp:9" [Cpu; Mkl; Mpi] [In Util; Any; If ([Any; Throw]) ([Any]); Out Util]; (* src/utils/fill/fill_view_dense.cpp:9-30 *)
  F "fill" "src/utils/fill/fill_view_dense.cpp:9" [Gpu] [In Util; Any; Out Util]; (* src/utils/fill/fill_view_dense.cpp:9-30 *)
  F "fill" "src/utils/fill/fill_view_tensor_dense.cpp:9" [Cpu; Mkl; Mpi] [In Util; Any; If ([Any; Throw]) ([Any]); Out Util]; (* src/utils/fill/fill_view_tensor_dense.cpp:9-30 *)
  F "fill" "src/utils/fill/fill_view_tensor_dense.cpp:9" [Gpu] [In Util; Any; Out Util]; (* src/utils/fill/fill_view_tensor_dense.cpp:9-30 *)
  F "diag" "src/utils/getvec/coo_getvec.cpp:8" [Cpu; Mkl; Mpi; Gpu] [In Func; Any; Out Func]; (* src/utils/getvec/coo_getvec.cpp:8-26 *)
  F "diag" "src/utils/getvec/coo_getvec.cpp:30" [Cpu; Mkl; Mpi; Gpu] [In Func; Any; Out Func]; (* src/utils/getvec/coo_getvec.cpp:30-47 *)
  F "diag" "src/utils/getvec/coo_getvec.cpp:53" [Cpu; Mkl; Mpi; Gpu] [In Func; Any; Out Func]; (* src/utils/getvec/coo_getvec.cpp:53-72 *)
  F "diag" "src/utils/getvec/coo_getvec.cpp:78" [Cpu; Mkl; Mpi; Gpu] [In Func; Any; Out Func]; (* src/utils/getvec/coo_getvec.cpp:78-97 *)
  F "row" "src/utils/getvec/coo_getvec.cpp:104" [Cpu; Mkl; Mpi; Gpu] [In Func; Any; Out Func]; (* src/utils/getvec/coo_getvec.cpp:104-120 *)
  F "row" "src/utils/getvec/coo_getvec.cpp:126" [Cpu; Mkl; Mpi; Gpu] [In Func; Any; Out Func]; (* src/utils/getvec/coo_getvec.cpp:126-143 *)
  F "row" "src/utils/getvec/coo_getvec.cpp:151" [Cpu; Mkl; Mpi; Gpu] [In Func; Any; Out Func]; (* src/utils/getvec/coo_getvec.cpp:151-168 *)
  F "row" "src/utils/getvec/coo_getvec.cpp:174" [Cpu; Mkl; Mpi; Gpu] [In Func; Any; Out Func]; (* src/utils/getvec/coo_getvec.cpp:174-192 *)
  F "col" "src/utils/getvec/coo_getvec.cpp:199" [Cpu; Mkl; Mpi; Gpu] [In Func; Any; Out Func]; (* src/utils/getvec/coo_getvec.cpp:199-215 *)
  F "col" "src/utils/getvec/coo_getvec.cpp:221" [Cpu; Mkl; Mpi; Gpu] [In Func; Any; Out Func]; (* src/utils/getvec/coo_getvec.cpp:221-238 *)
  F "col" "src/utils/getvec/coo_getvec.cpp:246" [Cpu; Mkl; Mpi; Gpu] [In Func; Any; Out Func]; (* src/utils/getvec/coo_getvec.cpp:246-263 *)
  F "col" "src/utils/getvec/coo_getvec.cpp:269" [Cpu; Mkl; Mpi; Gpu] [In Func; Any; Out Func]; (* src/utils/getvec/coo_getvec.cpp:269-287 *)
  F "diag" "src/utils/getvec/crs_getvec.cpp:8" [Cpu; Mkl; Mpi] [In Func; Any; If ([Any; Throw]) ([Any]); Out Func]; (* src/utils/getvec/crs_getvec.cpp:8-55 *)
  F "diag" "src/utils/getvec/crs_getvec.cpp:8" [Gpu] [In Func; Any; Out Func]; (* src/utils/getvec/crs_getvec.cpp:8-55 *)
  F "diag" "src/utils/getvec/crs_getvec.cpp:59" [Cpu; Mkl; Mpi] [In Func; Any; If ([Any; Throw]) ([Any]); Out Func]; (* src/utils/getvec/crs_getvec.cpp:59-106 *)
  F "diag" "src/utils/getvec/crs_getvec.cpp:59" [Gpu] [In Func; Any; Out Func]; (* src/utils/getvec/crs_getvec.cpp:59-106 *)
  F "diag" "src/utils/getvec/crs_getvec.cpp:112" [Cpu; Mkl; Mpi] [In Func; Any; If ([Any; Throw]) ([Any]); Out Func]; (* src/utils/getvec/crs_getvec.cpp:112-160 *)
  F "diag" "src/utils/getvec/crs_getvec.cpp:112" [Gpu] [In Func; Any; Out Func]; (* src/utils/getvec/crs_getvec.cpp:112-160 *)
  F "diag" "src/utils/getvec/crs_getvec.cpp:166" [Cpu; Mkl; Mpi] [In Func; Any; If ([Any; Throw]) ([Any]); Out Func]; (* src/utils/getvec/crs_getvec.cpp:166-214 *)
  F "diag" "src/utils/getvec/crs_getvec.cpp:166" [Gpu] [In Func; Any; Out Func]; (* src/utils/getvec/crs_getvec.cpp:166-214 *)
  F "row" "src/utils/getvec/crs_getvec.cpp:221" [Cpu; Mkl; Mpi] [In Func; Any; If ([Any; Throw]) ([Any]); Out Func]; (* src/utils/getvec/crs_getvec.cpp:221-261 *)
  F "row" "src/utils/getvec/crs_getvec.cpp:221" [Gpu] [In Func; Any; Out Func]; (* src/utils/getvec/crs_getvec.cpp:221-261 *)
  F "row" "src/utils/getvec/crs_getvec.cpp:267" [Cpu; Mkl; Mpi] [In Func; Any; If ([Any; Throw]) ([Any]); Out Func]; (* src/utils/getvec/crs_getvec.cpp:267-308 *)
  F "row" "src/utils/getvec/crs_getvec.cpp:267" [Gpu] [In Func; Any; Out Func]; (* src/utils/getvec/crs_getvec.cpp:267-308 *)
  F "row" "src/utils/getvec/crs_getvec.cpp:316" [Cpu; Mkl; Mpi] [In Func; Any; If ([Any; Throw]) ([Any]); Out Func]; (* src/utils/getvec/crs_getvec.cpp:316-357 *)
  F "row" "src/utils/getvec/crs_getvec.cpp:316" [Gpu] [In Func; Any; Out Func]; (* src/utils/getvec/crs_getvec.cpp:316-357 *)
  F "row" "src/utils/getvec/crs_getvec.cpp:363" [Cpu; Mkl; Mpi] [In Func; Any; If ([Any; Throw]) ([Any]); Out Func]; (* src/utils/getvec/crs_getvec.cpp:363-405 *)
  F "row" "src/utils/getvec/crs_getvec.cpp:363" [Gpu] [In Func; Any; Out Func]; (* src/utils/getvec/crs_getvec.cpp:363-405 *)
  F "col" "src/utils/getvec/crs_getvec.cpp:412" [Cpu; Mkl; Mpi] [In Func; Any; If ([Any; Throw]) ([Any]); Out Func]; (* src/utils/getvec/crs_getvec.cpp:412-459 *)
  F "col" "src/utils/getvec/crs_getvec.cpp:412" [Gpu] [In Func; Any; Out Func]; (* src/utils/getvec/crs_getvec.cpp:412-459 *)
  F "col" "src/utils/getvec/crs_getvec.cpp:465" [Cpu; Mkl; Mpi] [In Func; Any; If ([Any; Throw]) ([Any]); Out Func]; (* src/utils/getvec/crs_getvec.cpp:465-513 *)
  F "col" "src/utils/getvec/crs_getvec.cpp:465" [Gpu] [In Func; Any; Out Func]; (* src/utils/getvec/crs_getvec.cpp:465-513 *)
  F "col" "src/utils/getvec/crs_getvec.cpp:521" [Cpu; Mkl; Mpi] [In Func; Any; If ([Any; Throw]) ([Any]); Out Func]; (* src/utils/getvec/crs_getvec.cpp:521-569 *)
  F "col" "src/utils/getvec/crs_getvec.cpp:521" [Gpu] [In Func; Any; Out Func]; (* src/utils/getvec/crs_getvec.cpp:521-569 *)
  F "col" "src/utils/getvec/crs_getvec.cpp:575" [Cpu; Mkl; Mpi] [In Func; Any; If ([Any; Throw]) ([Any]); Out Func]; (* src/utils/getvec/crs_getvec.cpp:575-624 *)
  F "col" "src/utils/getvec/crs_getvec.cpp:575" [Gpu] [In Func; Any; Out Func]; (* src/utils/getvec/crs_getvec.cpp:575-624 *)
  F "diag" "src/utils/getvec/dense_getvec.cpp:8" [Cpu; Mkl; Mpi] [In Func; Any; If ([Any; Throw]) ([Any]); Out Func]; (* src/utils/getvec/dense_getvec.cpp:8-39 *)
  F "diag" "src/utils/getvec/dense_getvec.cpp:8" [Gpu] [In Func; Any; Out Func]; (* src/utils/getvec/dense_getvec.cpp:8-39 *)
  F "diag" "src/utils/getvec/dense_getvec.cpp:43" [Cpu; Mkl; Mpi] [In Func; Any; If ([Any; Throw]) ([Any]); Out Func]; (* src/utils/getvec/dense_getvec.cpp:43-74 *)
  F "diag" "src/utils/getvec/dense_getvec.cpp:43" [Gpu] [In Func; Any; Out Func]; (* src/utils/getvec/dense_getvec.cpp:43-74 *)
  F "diag" "src/utils/getvec/dense_getvec.cpp:80" [Cpu; Mkl; Mpi] [In Func; Any; If ([Any; Throw]) ([Any]); Out Func]; (* src/utils/getvec/dense_getvec.cpp:80-112 *)
  F "diag" "src/utils/getvec/dense_getvec.cpp:80" [Gpu] [In Func; Any; Out Func]; (* src/utils/getvec/dense_getvec.cpp:80-112 *)
  F "diag" "src/utils/getvec/dense_getvec.cpp:118" [Cpu; Mkl; Mpi] [In Func; Any; If ([Any; Throw]) ([Any]); Out Func]; (* src/utils/getvec/dense_getvec.cpp:118-150 *)
  F "diag" "src/utils/getvec/dense_getvec.cpp:118" [Gpu] [In Func; Any; Out Func]; (* src/utils/getvec/dense_getvec.cpp:118-150 *)
  F "row" "src/utils/getvec/dense_getvec.cpp:157" [Cpu; Mkl; Mpi] [In Func; Any; If ([Any; Throw]) ([Any]); Out Func]; (* src/utils/getvec/dense_getvec.cpp:157-187 *)
  F "row" "src/utils/getvec/dense_getvec.cpp:157" [Gpu] [In Func; Any; Out Func]; (* src/utils/getvec/dense_getvec.cpp:157-187 *)
  F "row" "src/utils/getvec/dense_getvec.cpp:193" [Cpu; Mkl; Mpi] [In Func; Any; If ([Any; Throw]) ([Any]); Out Func]; (* src/utils/getvec/dense_getvec.cpp:193-224 *)
  F "row" "src/utils/getvec/dense_getvec.cpp:193" [Gpu] [In Func; Any; Out Func]; (* src/utils/getvec/dense_getvec.cpp:193-224 *)
  F "row" "src/utils/getvec/dense_getvec.cpp:232" [Cpu; Mkl; Mpi] [In Func; Any; If ([Any; Throw]) ([Any]); Out Func]; (* src/utils/getvec/dense_getvec.cpp:232-263 *)
  F "row" "src/utils/getvec/dense_getvec.cpp:232" [Gpu] [In Func; Any; Out Func]; (* src/utils/getvec/dense_getvec.cpp:232-263 *)
  F "row" "src/utils/getvec/dense_getvec.cpp:269" [Cpu; Mkl; Mpi] [In Func; Any; If ([Any; Throw]) ([Any]); Out Func]; (* src/utils/getvec/dense_getvec.cpp:269-301 *)
  F "row" "src/utils/getvec/dense_getvec.cpp:269" [Gpu] [In Func; Any; Out Func]; (* src/utils/getvec/dense_getvec.cpp:269-301 *)
  F "col" "src/utils/getvec/dense_getvec.cpp:308" [Cpu; Mkl; Mpi] [In Func; Any; If ([Any; Throw]) ([Any]); Out Func]; (* src/utils/getvec/dense_getvec.cpp:308-339 *)
  F "col" "src/utils/getvec/dense_getvec.cpp:308" [Gpu] [In Func; Any; Out Func]; (* src/utils/getvec/dense_getvec.cpp:308-339 *)
  F "col" "src/utils/getvec/dense_getvec.cpp:345" [Cpu; Mkl; Mpi] [In Func; Any; If ([Any; Throw]) ([Any]); Out Func]; (* src/utils/getvec/dense_getvec.cpp:345-377 *)
  F "col" "src/utils/getvec/dense_getvec.cpp:345" [Gpu] [In Func; Any; Out Func]; (* src/utils/getvec/dense_getvec.cpp:345-377 *)
  F "col" "src/utils/getvec/dense_getvec.cpp:385" [Cpu; Mkl; Mpi] [In Func; Any; If ([Any; Throw]) ([Any]); Out Func]; (* src/utils/getvec/dense_getvec.cpp:385-417 *)
  F "col" "src/utils/getvec/dense_getvec.cpp:385" [Gpu] [In Func; Any; Out Func]; (* src/utils/getvec/dense_getvec.cpp:385-417 *)
  F "col" "src/utils/getvec/dense_getvec.cpp:423" [Cpu; Mkl; Mpi] [In Func; Any; If ([Any; Throw]) ([Any]); Out Func]; (* src/utils/getvec/dense_getvec.cpp:423-456 *)
  F "col" "src/utils/getvec/dense_getvec.cpp:423" [Gpu] [In Func; Any; Out Func]; (* src/utils/getvec/dense_getvec.cpp:423-456 *)
  F "diag" "src/utils/getvec/linearoperator_getvec.cpp:8" [Cpu; Mkl; Mpi] [In Func; Any; If ([Any; Throw]) ([Any]); Out Func]; (* src/utils/getvec/linearoperator_getvec.cpp:8-55 *)
  F "diag" "src/utils/getvec/linearoperator_getvec.cpp:8" [Gpu] [In Func; Any; Out Func]; (* src/utils/getvec/linearoperator_getvec.cpp:8-55 *)
  F "diag" "src/utils/getvec/linearoperator_getvec.cpp:62" [Cpu; Mkl; Mpi] [In Func; Any; If ([Any; Throw]) ([Any]); Out Func]; (* src/utils/getvec/linearoperator_getvec.cpp:62-107 *)
  F "diag" "src/utils/getvec/linearoperator_getvec.cpp:62" [Gpu] [In Func; Any; Out Func]; (* src/utils/getvec/linearoperator_getvec.cpp:62-107 *)
  F "diag" "src/utils/getvec/linearoperator_getvec.cpp:114" [Cpu; Mkl; Mpi] [In Func; Any; If ([Any; Throw]) ([Any]); Out Func]; (* src/utils/getvec/linearoperator_getvec.cpp:114-159 *)
  F "diag" "src/utils/getvec/linearoperator_getvec.cpp:114" [Gpu] [In Func; Any; Out Func]; (* src/utils/getvec/linearoperator_getvec.cpp:114-159 *)
  F "diag" "src/utils/getvec/linearoperator_getvec.cpp:166" [Cpu; Mkl; Mpi] [In Func; Any; If ([Any; Throw]) ([Any]); Out Func]; (* src/utils/getvec/linearoperator_getvec.cpp:166-211 *)
  F "diag" "src/utils/getvec/linearoperator_getvec.cpp:166" [Gpu] [In Func; Any; Out Func]; (* src/utils/getvec/linearoperator_getvec.cpp:166-211 *)
  F "diag" "src/utils/getvec/tensor_coo_getvec.cpp:8" [Cpu; Mkl; Mpi; Gpu] [In Func; Any; Out Func]; (* src/utils/getvec/tensor_coo_getvec.cpp:8-33 *)
  F "diag" "src/utils/getvec/tensor_coo_getvec.cpp:39" [Cpu; Mkl; Mpi; Gpu] [In Func; Any; Out Func]; (* src/utils/getvec/tensor_coo_getvec.cpp:39-64 *)
  F "diag" "src/utils/getvec/tensor_coo_getvec.cpp:70" [Cpu; Mkl; Mpi; Gpu] [In Func; Any; Out Func]; (* src/utils/getvec/tensor_coo_getvec.cpp:70-96 *)
  F "diag" "src/utils/getvec/tensor_coo_getvec.cpp:102" [Cpu; Mkl; Mpi; Gpu] [In Func; Any; Out Func]; (* src/utils/getvec/tensor_coo_getvec.cpp:102-128 *)
  F "compute_hash" "src/utils/hash.cpp:10" [Cpu; Mkl; Mpi; Gpu] [In Util; Any; Out Util]; (* src/utils/hash.cpp:10-20 *)
  F "compute_hash" "src/utils/hash.cpp:28" [Cpu; Mkl; Mpi; Gpu] [In Util; Any; Out Util]; (* src/utils/hash.cpp:28-43 *)
  F "LinearOperator" "src/utils/linearoperator_constructor.cpp:16" [Cpu; Mkl; Mpi; Gpu] [In Util; Any; Out Util]; (* src/utils/linearoperator_constructor.cpp:16-24 *)
  F "LinearOperator" "src/utils/linearoperator_constructor.cpp:28" [Cpu; Mkl; Mpi; Gpu] [In Util; Any; Out Util]; (* src/utils/linearoperator_constructor.cpp:28-39 *)
  F "LinearOperator" "src/utils/linearoperator_constructor.cpp:48" [Cpu; Mkl; Mpi; Gpu] [In Util; Any; Out Util]; (* src/utils/linearoperator_constructor.cpp:48-61 *)
  F "LinearOperator" "src/utils/linearoperator_constructor.cpp:72" [Cpu; Mkl; Mpi; Gpu] [In Util; Any; Out Util]; (* src/utils/linearoperator_constructor.cpp:72-83 *)
  F "LinearOperator" "src/utils/linearoperator_constructor.cpp:92" [Cpu; Mkl; Mpi; Gpu] [In Util; Any; Out Util]; (* src/utils/linearoperator_constructor.cpp:92-105 *)
  F "LinearOperator" "src/utils/linearoperator_constructor.cpp:117" [Cpu; Mkl; Mpi; Gpu] [In Util; Any]; (* src/utils/linearoperator_constructor.cpp:117-129 *)
  F "operator-" "src/utils/minus/vector_minus.cpp:8" [Cpu; Mkl; Mpi; Gpu] [In Func; Any; Out Func; Any; Return]; (* src/utils/minus/vector_minus.cpp:8-21 *)
  F "move" "src/utils/move/move_dense.cpp:10" [Cpu; Mkl; Mpi; Gpu] [In Util; Any; If ([Any; Throw]) ([]); Any; Out Util]; (* src/utils/move/move_dense.cpp:10-31 *)
  F "move" "src/utils/move/move_dense.cpp:38" [Cpu; Mkl; Mpi; Gpu] [In Util; Any; If ([Any; Throw]) ([]); Any; Out Util]; (* src/utils/move/move_dense.cpp:38-59 *)
  F "move" "src/utils/move/move_dense.cpp:66" [Cpu; Mkl; Mpi; Gpu] [In Util; Any; If ([Any; Throw]) ([]); Any; Out Util]; (* src/utils/move/move_dense.cpp:66-88 *)
  F "move" "src/utils/move/move_dense.cpp:95" [Cpu; Mkl; Mpi; Gpu] [In Util; Any; If ([Any; Throw]) ([]); Any; Out Util]; (* src/utils/move/move_dense.cpp:95-117 *)
  F "move" "src/utils/move/move_dense.cpp:126" [Cpu; Mkl; Mpi; Gpu] [In Util; Any; If ([Any; Throw]) ([]); Any; If ([Any; Throw]) ([]); Any; Out Util]; (* src/utils/move/move_dense.cpp:126-159 *)
  F "move" "src/utils/move/move_dense.cpp:168" [Cpu; Mkl; Mpi; Gpu] [In Util; Any; If ([Any; Throw]) ([]); Any; If ([Any; Throw]) ([]); Any; Out Util] (* src/utils/move/move_dense.cpp:168-201 *)
].

Definition functions_5 : list func := [
  F "move" "src/utils/move/move_dense.cpp:210" [Cpu; Mkl; Mpi; Gpu] [In Util; Any; If ([Any; Throw]) ([]); Any; If ([Any; Throw]) ([]); Any; Out Util]; (* src/utils/move/move_dense.cpp:210-243 *)
  F "move" "src/utils/move/move_dense.cpp:252" [Cpu; Mkl; Mpi; Gpu] [In Util; Any; If ([Any; Throw]) ([]); Any; If ([Any; Throw]) ([]); Any; Out Util]; (* src/utils/move/move_dense.cpp:252-286 *)
  F "move" "src/utils/move/move_tensor_dense.cpp:11" [Cpu; Mkl; Mpi; Gpu] [In Util; Any; Out Util]; (* src/utils/move/move_tensor_dense.cpp:11-29 *)
  F "move" "src/utils/move/move_tensor_dense.cpp:34" [Cpu; Mkl; Mpi; Gpu] [In Util; Any; Out Util]; (* src/utils/move/move_tensor_dense.cpp:34-50 *)
  F "move" "src/utils/move/move_vector.cpp:9" [Cpu; Mkl; Mpi; Gpu] [In Util; Any; If ([Any; Throw]) ([]); Any; Out Util]; (* src/utils/move/move_vector.cpp:9-28 *)
  F "move" "src/utils/move/move_vector.cpp:35" [Cpu; Mkl; Mpi; Gpu] [In Util; Any; If ([Any; Throw]) ([]); Any; Out Util]; (* src/utils/move/move_vector.cpp:35-54 *)
  F "move" "src/utils/move/move_vector.cpp:61" [Cpu; Mkl; Mpi; Gpu] [In Util; Any; If ([Any; Throw]) ([]); Any; Out Util]; (* src/utils/move/move_vector.cpp:61-81 *)
  F "move" "src/utils/move/move_vector.cpp:88" [Cpu; Mkl; Mpi; Gpu] [In Util; Any; If ([Any; Throw]) ([]); Any; Out Util]; (* src/utils/move/move_vector.cpp:88-108 *)
  F "move" "src/utils/move/move_vector.cpp:116" [Cpu; Mkl; Mpi; Gpu] [In Util; Any; If ([Any; Throw]) ([]); Any; Out Util]; (* src/utils/move/move_vector.cpp:116-138 *)
  F "move" "src/utils/move/move_vector.cpp:145" [Cpu; Mkl; Mpi; Gpu] [In Util; Any; If ([Any; Throw]) ([]); Any; Out Util]; (* src/utils/move/move_vector.cpp:145-168 *)
  F "move" "src/utils/move/move_vector.cpp:176" [Cpu; Mkl; Mpi; Gpu] [In Util; Any; If ([Any; Throw]) ([]); Any; Out Util]; (* src/utils/move/move_vector.cpp:176-199 *)
  F "move" "src/utils/move/move_vector.cpp:208" [Cpu; Mkl; Mpi; Gpu] [In Util; Any; If ([Any; Throw]) ([]); Any; Out Util]; (* src/utils/move/move_vector.cpp:208-232 *)
  F "move" "src/utils/move/move_view_dense.cpp:9" [Cpu; Mkl; Mpi; Gpu] [In Util; Any; If ([Any; Throw]) ([]); Any; Out Util]; (* src/utils/move/move_view_dense.cpp:9-29 *)
  F "move" "src/utils/move/move_view_dense.cpp:46" [Cpu; Mkl; Mpi; Gpu] [In Util; Any; If ([Any; Throw]) ([]); Any; If ([Any; Throw]) ([]); Any; Out Util]; (* src/utils/move/move_view_dense.cpp:46-77 *)
  F "reshape" "src/utils/reshape/reshape_dense.cpp:9" [Cpu; Mkl; Mpi; Gpu] [In Util; Any; If ([Any; Throw]) ([]); Any; Out Util]; (* src/utils/reshape/reshape_dense.cpp:9-26 *)
  F "reshape" "src/utils/reshape/reshape_tensor_dense.cpp:8" [Cpu; Mkl; Mpi; Gpu] [In Util; Any; If ([Any; Throw]) ([]); Any; If ([Any; Throw]) ([]); Out Util]; (* src/utils/reshape/reshape_tensor_dense.cpp:8-45 *)
  F "send" "src/utils/system/gpu_comm.cpp:8" [Cpu; Mkl; Mpi] [In Util; Out Util]; (* src/utils/system/gpu_comm.cpp:8-24 *)
  F "send" "src/utils/system/gpu_comm.cpp:8" [Gpu] [In Util; Any; Out Util]; (* src/utils/system/gpu_comm.cpp:8-24 *)
  F "recv" "src/utils/system/gpu_comm.cpp:27" [Cpu; Mkl; Mpi] [In Util; Out Util]; (* src/utils/system/gpu_comm.cpp:27-42 *)
  F "recv" "src/utils/system/gpu_comm.cpp:27" [Gpu] [In Util; Any; Out Util]; (* src/utils/system/gpu_comm.cpp:27-42 *)
  F "nonfree_recv" "src/utils/system/gpu_comm.cpp:45" [Cpu; Mkl; Mpi] [In Util; Out Util]; (* src/utils/system/gpu_comm.cpp:45-57 *)
  F "nonfree_recv" "src/utils/system/gpu_comm.cpp:45" [Gpu] [In Util; Any; Out Util]; (* src/utils/system/gpu_comm.cpp:45-57 *)
  F "device_free" "src/utils/system/gpu_comm.cpp:60" [Cpu; Mkl; Mpi] [In Util; Out Util]; (* src/utils/system/gpu_comm.cpp:60-73 *)
  F "device_free" "src/utils/system/gpu_comm.cpp:60" [Gpu] [In Util; Any; Out Util]; (* src/utils/system/gpu_comm.cpp:60-73 *)
  F "send" "src/utils/system/gpu_comm.cpp:89" [Cpu; Mkl; Mpi] [In Util; Out Util]; (* src/utils/system/gpu_comm.cpp:89-110 *)
  F "send" "src/utils/system/gpu_comm.cpp:89" [Gpu] [In Util; Any; Out Util]; (* src/utils/system/gpu_comm.cpp:89-110 *)
  F "recv" "src/utils/system/gpu_comm.cpp:113" [Cpu; Mkl; Mpi] [In Util; Out Util]; (* src/utils/system/gpu_comm.cpp:113-131 *)
  F "recv" "src/utils/system/gpu_comm.cpp:113" [Gpu] [In Util; Any; Out Util]; (* src/utils/system/gpu_comm.cpp:113-131 *)
  F "nonfree_recv" "src/utils/system/gpu_comm.cpp:134" [Cpu; Mkl; Mpi] [In Util; Out Util]; (* src/utils/system/gpu_comm.cpp:134-150 *)
  F "nonfree_recv" "src/utils/system/gpu_comm.cpp:134" [Gpu] [In Util; Any; Out Util]; (* src/utils/system/gpu_comm.cpp:134-150 *)
  F "device_free" "src/utils/system/gpu_comm.cpp:153" [Cpu; Mkl; Mpi] [In Util; Out Util]; (* src/utils/system/gpu_comm.cpp:153-172 *)
  F "device_free" "src/utils/system/gpu_comm.cpp:153" [Gpu] [In Util; Any; Out Util]; (* src/utils/system/gpu_comm.cpp:153-172 *)
  F "send" "src/utils/system/gpu_comm.cpp:186" [Cpu; Mkl; Mpi] [In Util; Out Util]; (* src/utils/system/gpu_comm.cpp:186-202 *)
  F "send" "src/utils/system/gpu_comm.cpp:186" [Gpu] [In Util; Any; Out Util]; (* src/utils/system/gpu_comm.cpp:186-202 *)
  F "recv" "src/utils/system/gpu_comm.cpp:205" [Cpu; Mkl; Mpi] [In Util; Out Util]; (* src/utils/system/gpu_comm.cpp:205-219 *)
  F "recv" "src/utils/system/gpu_comm.cpp:205" [Gpu] [In Util; Any; Out Util]; (* src/utils/system/gpu_comm.cpp:205-219 *)
  F "nonfree_recv" "src/utils/system/gpu_comm.cpp:222" [Cpu; Mkl; Mpi] [In Util; Out Util]; (* src/utils/system/gpu_comm.cpp:222-235 *)
  F "nonfree_recv" "src/utils/system/gpu_comm.cpp:222" [Gpu] [In Util; Any; Out Util]; (* src/utils/system/gpu_comm.cpp:222-235 *)
  F "device_free" "src/utils/system/gpu_comm.cpp:238" [Cpu; Mkl; Mpi] [In Util; Out Util]; (* src/utils/system/gpu_comm.cpp:238-253 *)
  F "device_free" "src/utils/system/gpu_comm.cpp:238" [Gpu] [In Util; Any; Out Util]; (* src/utils/system/gpu_comm.cpp:238-253 *)
  F "send" "src/utils/system/gpu_comm.cpp:268" [Cpu; Mkl; Mpi] [In Util; Out Util]; (* src/utils/system/gpu_comm.cpp:268-284 *)
  F "send" "src/utils/system/gpu_comm.cpp:268" [Gpu] [In Util; Any; Out Util]; (* src/utils/system/gpu_comm.cpp:268-284 *)
  F "recv" "src/utils/system/gpu_comm.cpp:287" [Cpu; Mkl; Mpi] [In Util; Out Util]; (* src/utils/system/gpu_comm.cpp:287-301 *)
  F "recv" "src/utils/system/gpu_comm.cpp:287" [Gpu] [In Util; Any; Out Util]; (* src/utils/system/gpu_comm.cpp:287-301 *)
  F "nonfree_recv" "src/utils/system/gpu_comm.cpp:304" [Cpu; Mkl; Mpi] [In Util; Out Util]; (* src/utils/system/gpu_comm.cpp:304-317 *)
  F "nonfree_recv" "src/utils/system/gpu_comm.cpp:304" [Gpu] [In Util; Any; Out Util]; (* src/utils/system/gpu_comm.cpp:304-317 *)
  F "device_free" "src/utils/system/gpu_comm.cpp:320" [Cpu; Mkl; Mpi] [In Util; Out Util]; (* src/utils/system/gpu_comm.cpp:320-335 *)
  F "device_free" "src/utils/system/gpu_comm.cpp:320" [Gpu] [In Util; Any; Out Util]; (* src/utils/system/gpu_comm.cpp:320-335 *)
  F "send" "src/utils/system/gpu_comm.cpp:350" [Cpu; Mkl; Mpi] [In Util; Out Util]; (* src/utils/system/gpu_comm.cpp:350-383 *)
  F "send" "src/utils/system/gpu_comm.cpp:350" [Gpu] [In Util; Any; Out Util]; (* src/utils/system/gpu_comm.cpp:350-383 *)
  F "recv" "src/utils/system/gpu_comm.cpp:386" [Cpu; Mkl; Mpi] [In Util; Out Util]; (* src/utils/system/gpu_comm.cpp:386-409 *)
  F "recv" "src/utils/system/gpu_comm.cpp:386" [Gpu] [In Util; Any; Out Util]; (* src/utils/system/gpu_comm.cpp:386-409 *)
  F "nonfree_recv" "src/utils/system/gpu_comm.cpp:412" [Cpu; Mkl; Mpi] [In Util; Out Util]; (* src/utils/system/gpu_comm.cpp:412-433 *)
  F "nonfree_recv" "src/utils/system/gpu_comm.cpp:412" [Gpu] [In Util; Any; Out Util]; (* src/utils/system/gpu_comm.cpp:412-433 *)
  F "device_free" "src/utils/system/gpu_comm.cpp:436" [Cpu; Mkl; Mpi] [In Util; Out Util]; (* src/utils/system/gpu_comm.cpp:436-459 *)
  F "device_free" "src/utils/system/gpu_comm.cpp:436" [Gpu] [In Util; Any; Out Util]; (* src/utils/system/gpu_comm.cpp:436-459 *)
  F "tensor_COO" "src/utils/tensor_coo_constructor.cpp:11" [Cpu; Mkl; Mpi; Gpu] [In Util; Any; Out Util]; (* src/utils/tensor_coo_constructor.cpp:11-24 *)
  F "tensor_COO" "src/utils/tensor_coo_constructor.cpp:33" [Cpu; Mkl; Mpi; Gpu] [In Util; Any; Out Util]; (* src/utils/tensor_coo_constructor.cpp:33-44 *)
  F "tensor_COO" "src/utils/tensor_coo_constructor.cpp:49" [Cpu; Mkl; Mpi; Gpu] [In Util; Any; Out Util]; (* src/utils/tensor_coo_constructor.cpp:49-61 *)
  F "tensor_CRS" "src/utils/tensor_crs_constructor.cpp:12" [Cpu; Mkl; Mpi; Gpu] [In Util; Any; Out Util]; (* src/utils/tensor_crs_constructor.cpp:12-31 *)
  F "tensor_CRS" "src/utils/tensor_crs_constructor.cpp:42" [Cpu; Mkl; Mpi; Gpu] [In Util; Any; Out Util]; (* src/utils/tensor_crs_constructor.cpp:42-55 *)
  F "tensor_Dense" "src/utils/tensor_dense_constructor.cpp:11" [Cpu; Mkl; Mpi; Gpu] [In Util; Any; Out Util]; (* src/utils/tensor_dense_constructor.cpp:11-20 *)
  F "tensor_Dense" "src/utils/tensor_dense_constructor.cpp:24" [Cpu; Mkl; Mpi; Gpu] [In Util; Any; Out Util]; (* src/utils/tensor_dense_constructor.cpp:24-33 *)
  F "tensor_Dense" "src/utils/tensor_dense_constructor.cpp:39" [Cpu; Mkl; Mpi; Gpu] [In Util; Any; Out Util]; (* src/utils/tensor_dense_constructor.cpp:39-50 *)
  F "tensor_Dense" "src/utils/tensor_dense_constructor.cpp:57" [Cpu; Mkl; Mpi; Gpu] [In Util; Any; Out Util]; (* src/utils/tensor_dense_constructor.cpp:57-68 *)
  F "tensor_Dense" "src/utils/tensor_dense_constructor.cpp:75" [Cpu; Mkl; Mpi; Gpu] [In Util; Any; Out Util]; (* src/utils/tensor_dense_constructor.cpp:75-94 *)
  F "tensor_Dense" "src/utils/tensor_dense_constructor.cpp:100" [Cpu; Mkl; Mpi; Gpu] [In Util; Any; Out Util]; (* src/utils/tensor_dense_constructor.cpp:100-118 *)
  F "tensor_Dense" "src/utils/tensor_dense_constructor.cpp:126" [Cpu; Mkl; Mpi; Gpu] [In Util; Any; Out Util]; (* src/utils/tensor_dense_constructor.cpp:126-144 *)
  F "tensor_Dense" "src/utils/tensor_dense_constructor.cpp:148" [Cpu; Mkl; Mpi; Gpu] [In Util; Any; Out Util]; (* src/utils/tensor_dense_constructor.cpp:148-166 *)
  F "tensor_Dense" "src/utils/tensor_dense_constructor.cpp:173" [Cpu; Mkl; Mpi; Gpu] [In Util; Any; Out Util]; (* src/utils/tensor_dense_constructor.cpp:173-191 *)
  F "tensor_Dense" "src/utils/tensor_dense_constructor.cpp:197" [Cpu; Mkl; Mpi; Gpu] [In Util; Any; Out Util]; (* src/utils/tensor_dense_constructor.cpp:197-216 *)
  F "tensor_Dense" "src/utils/tensor_dense_constructor.cpp:222" [Cpu; Mkl; Mpi; Gpu] [In Util; Any; Out Util]; (* src/utils/tensor_dense_constructor.cpp:222-241 *)
  F "transpose" "src/utils/transpose/transpose_coo.cpp:9" [Cpu; Mkl; Mpi; Gpu] [In Util; Any; Out Util]; (* src/utils/transpose/transpose_coo.cpp:9-17 *)
  F "transpose" "src/utils/transpose/transpose_coo.cpp:21" [Cpu; Mkl; Mpi; Gpu] [In Util; Any; If ([Any; If ([Any; Throw]) ([])]) ([Any]); Any; Out Util]; (* src/utils/transpose/transpose_coo.cpp:21-42 *)
  F "transpose" "src/utils/transpose/transpose_crs.cpp:9" [Cpu; Mkl; Mpi; Gpu] [In Util; Any; Out Util]; (* src/utils/transpose/transpose_crs.cpp:9-53 *)
  F "transpose" "src/utils/transpose/transpose_crs.cpp:57" [Cpu; Mkl; Mpi; Gpu] [In Util; Any; If ([Any; Throw]) ([]); Any; Out Util]; (* src/utils/transpose/transpose_crs.cpp:57-107 *)
  F "transpose" "src/utils/transpose/transpose_dense.cpp:9" [Cpu; Mkl; Mpi; Gpu] [In Util; Any; Out Util]; (* src/utils/transpose/transpose_dense.cpp:9-36 *)
  F "transpose" "src/utils/transpose/transpose_dense.cpp:40" [Cpu; Mkl; Mpi; Gpu] [In Util; Any; If ([Any; If ([Any; Throw]) ([])]) ([Any]); Any; Out Util]; (* src/utils/transpose/transpose_dense.cpp:40-62 *)
  F "vector" "src/utils/vector_constructor.cpp:8" [Cpu; Mkl; Mpi; Gpu] [In Util; Any; Out Util]; (* src/utils/vector_constructor.cpp:8-14 *)
  F "vector" "src/utils/vector_constructor.cpp:18" [Cpu; Mkl; Mpi; Gpu] [In Util; Any; Out Util]; (* src/utils/vector_constructor.cpp:18-30 *)
  F "random_vector" "src/utils/vector_constructor.cpp:35" [Cpu; Mkl; Mpi; Gpu] [In Util; Any; Out Util]; (* src/utils/vector_constructor.cpp:35-49 *)
  F "vector" "src/utils/vector_constructor.cpp:55" [Cpu; Mkl; Mpi; Gpu] [In Util; Any; Out Util]; (* src/utils/vector_constructor.cpp:55-71 *)
  F "random_vector" "src/utils/vector_constructor.cpp:78" [Cpu; Mkl; Mpi; Gpu] [In Util; Any; Out Util]; (* src/utils/vector_constructor.cpp:78-92 *)
  F "vector" "src/utils/vector_constructor.cpp:98" [Cpu; Mkl; Mpi; Gpu] [In Util; Any; Out Util]; (* src/utils/vector_constructor.cpp:98-114 *)
  F "vector" "src/utils/vector_constructor.cpp:121" [Cpu; Mkl; Mpi; Gpu] [In Util; Any; Out Util]; (* src/utils/vector_constructor.cpp:121-129 *)
  F "vector" "src/utils/vector_constructor.cpp:134" [Cpu; Mkl; Mpi; Gpu] [In Util; Any; Out Util]; (* src/utils/vector_constructor.cpp:134-141 *)
  F "vector" "src/utils/vector_constructor.cpp:147" [Cpu; Mkl; Mpi; Gpu] [In Util; Any; Out Util]; (* src/utils/vector_constructor.cpp:147-154 *)
  F "vector" "src/utils/vector_constructor.cpp:159" [Cpu; Mkl; Mpi; Gpu] [In Util; Any; Out Util]; (* src/utils/vector_constructor.cpp:159-176 *)
  F "vector" "src/utils/vector_constructor.cpp:181" [Cpu; Mkl; Mpi; Gpu] [In Util; Any; Out Util]; (* src/utils/vector_constructor.cpp:181-199 *)
  F "vector" "src/utils/vector_constructor.cpp:204" [Cpu; Mkl; Mpi; Gpu] [In Util; Any; Out Util]; (* src/utils/vector_constructor.cpp:204-222 *)
  F "vector" "src/utils/vector_constructor.cpp:228" [Cpu; Mkl; Mpi; Gpu] [In Util; Any; Out Util]; (* src/utils/vector_constructor.cpp:228-247 *)
  F "add" "src/vml/linearoperator/double_linearoperator_linearoperator.cpp:11" [Cpu; Mkl; Mpi; Gpu] [In Func; Any; Out Func]; (* src/vml/linearoperator/double_linearoperator_linearoperator.cpp:11-57 *)
  F "sub" "src/vml/linearoperator/double_linearoperator_linearoperator.cpp:59" [Cpu; Mkl; Mpi; Gpu] [In Func; Any; Out Func]; (* src/vml/linearoperator/double_linearoperator_linearoperator.cpp:59-102 *)
  F "add" "src/vml/linearoperator/double_scalar_linearoperator.cpp:11" [Cpu; Mkl; Mpi; Gpu] [In Func; Any; Out Func]; (* src/vml/linearoperator/double_scalar_linearoperator.cpp:11-50 *)
  F "sub" "src/vml/linearoperator/double_scalar_linearoperator.cpp:52" [Cpu; Mkl; Mpi; Gpu] [In Func; Any; Out Func]; (* src/vml/linearoperator/double_scalar_linearoperator.cpp:52-91 *)
  F "mul" "src/vml/linearoperator/double_scalar_linearoperator.cpp:93" [Cpu; Mkl; Mpi; Gpu] [In Func; Any; Out Func]; (* src/vml/linearoperator/double_scalar_linearoperator.cpp:93-132 *)
  F "div" "src/vml/linearoperator/double_scalar_linearoperator.cpp:134" [Cpu; Mkl; Mpi; Gpu] [In Func; Any; Out Func]; (* src/vml/linearoperator/double_scalar_linearoperator.cpp:134-173 *)
  F "add" "src/vml/linearoperator/float_linearoperator_linearoperator.cpp:11" [Cpu; Mkl; Mpi; Gpu] [In Func; Any; Out Func]; (* src/vml/linearoperator/float_linearoperator_linearoperator.cpp:11-57 *)
  F "sub" "src/vml/linearoperator/float_linearoperator_linearoperator.cpp:59" [Cpu; Mkl; Mpi; Gpu] [In Func; Any; Out Func]; (* src/vml/linearoperator/float_linearoperator_linearoperator.cpp:59-102 *)
  F "add" "src/vml/linearoperator/float_scalar_linearoperator.cpp:11" [Cpu; Mkl; Mpi; Gpu] [In Func; Any; Out Func]; (* src/vml/linearoperator/float_scalar_linearoperator.cpp:11-50 *)
  F "sub" "src/vml/linearoperator/float_scalar_linearoperator.cpp:52" [Cpu; Mkl; Mpi; Gpu] [In Func; Any; Out Func]; (* src/vml/linearoperator/float_scalar_linearoperator.cpp:52-91 *)
  F "mul" "src/vml/linearoperator/float_scalar_linearoperator.cpp:93" [Cpu; Mkl; Mpi; Gpu] [In Func; Any; Out Func]; (* src/vml/linearoperator/float_scalar_linearoperator.cpp:93-132 *)
  F "div" "src/vml/linearoperator/float_scalar_linearoperator.cpp:134" [Cpu; Mkl; Mpi; Gpu] [In Func; Any; Out Func]; (* src/vml/linearoperator/float_scalar_linearoperator.cpp:134-173 *)
  F "smadd_core" "src/vml/matrix/arithmetic/matadd.hpp:6" [Cpu; Mkl; Mpi; Gpu] [In Func; Any; Out Func]; (* src/vml/matrix/arithmetic/matadd.hpp:6-19 *)
  F "mmadd_core" "src/vml/matrix/arithmetic/matadd.hpp:21" [Cpu; Mkl; Mpi; Gpu] [In Func; Any; Out Func]; (* src/vml/matrix/arithmetic/matadd.hpp:21-35 *)
  F "smdiv_core" "src/vml/matrix/arithmetic/matdiv.hpp:6" [Cpu; Mkl; Mpi; Gpu] [In Func; Any; Out Func]; (* src/vml/matrix/arithmetic/matdiv.hpp:6-19 *)
  F "mmdiv_core" "src/vml/matrix/arithmetic/matdiv.hpp:21" [Cpu; Mkl; Mpi; Gpu] [In Func; Any; Out Func]; (* src/vml/matrix/arithmetic/matdiv.hpp:21-35 *)
  F "smmul_core" "src/vml/matrix/arithmetic/matmul.hpp:6" [Cpu; Mkl; Mpi; Gpu] [In Func; Any; Out Func]; (* src/vml/matrix/arithmetic/matmul.hpp:6-19 *)
  F "mmmul_core" "src/vml/matrix/arithmetic/matmul.hpp:21" [Cpu; Mkl; Mpi; Gpu] [In Func; Any; Out Func]; (* src/vml/matrix/arithmetic/matmul.hpp:21-35 *)
  F "smsub_core" "src/vml/matrix/arithmetic/matsub.hpp:6" [Cpu; Mkl; Mpi; Gpu] [In Func; Any; Out Func]; (* src/vml/matrix/arithmetic/matsub.hpp:6-19 *)
  F "mmsub_core" "src/vml/matrix/arithmetic/matsub.hpp:21" [Cpu; Mkl; Mpi; Gpu] [In Func; Any; Out Func]; (* src/vml/matrix/arithmetic/matsub.hpp:21-35 *)
  F "mmmax_core" "src/vml/matrix/math_1_3op/matmax.hpp:5" [Cpu; Mkl; Mpi; Gpu] [In Func; Any; Out Func]; (* src/vml/matrix/math_1_3op/matmax.hpp:5-19 *)
  F "smmax_core" "src/vml/matrix/math_1_3op/matmax.hpp:21" [Cpu; Mkl; Mpi; Gpu] [In Func; Any; Out Func]; (* src/vml/matrix/math_1_3op/matmax.hpp:21-35 *)
  F "mmax_core" "src/vml/matrix/math_1_3op/matmax.hpp:37" [Cpu; Mkl; Mpi; Gpu] [In Func; Any; Out Func; Any; If ([Any; Return]) ([Any; Return])]; (* src/vml/matrix/math_1_3op/matmax.hpp:37-49 *)
  F "mmmin_core" "src/vml/matrix/math_1_3op/matmin.hpp:5" [Cpu; Mkl; Mpi; Gpu] [In Func; Any; Out Func]; (* src/vml/matrix/math_1_3op/matmin.hpp:5-19 *)
  F "smmin_core" "src/vml/matrix/math_1_3op/matmin.hpp:21" [Cpu; Mkl; Mpi; Gpu] [In Func; Any; Out Func]; (* src/vml/matrix/math_1_3op/matmin.hpp:21-35 *)
  F "mmin_core" "src/vml/matrix/math_1_3op/matmin.hpp:37" [Cpu; Mkl; Mpi; Gpu] [In Func; Any; Out Func; Any; If ([Any; Return]) ([Any; Return])]; (* src/vml/matrix/math_1_3op/matmin.hpp:37-49 *)
  F "mmpow_core" "src/vml/matrix/math_1_3op/matpow.hpp:5" [Cpu; Mkl; Mpi; Gpu] [In Func; Any; Out Func]; (* src/vml/matrix/math_1_3op/matpow.hpp:5-19 *)
  F "smpow_core" "src/vml/matrix/math_1_3op/matpow.hpp:21" [Cpu; Mkl; Mpi; Gpu] [In Func; Any; Out Func]; (* src/vml/matrix/math_1_3op/matpow.hpp:21-35 *)
  F "malo_core" "src/vml/matrix/math_2op/matalo.hpp:5" [Cpu; Mkl; Mpi; Gpu] [In Func; Any; Out Func]; (* src/vml/matrix/math_2op/matalo.hpp:5-19 *)
  F "masin_core" "src/vml/matrix/math_2op/matasin.hpp:5" [Cpu; Mkl; Mpi; Gpu] [In Func; Any; Out Func]; (* src/vml/matrix/math_2op/matasin.hpp:5-17 *)
  F "masinh_core" "src/vml/matrix/math_2op/matasinh.hpp:5" [Cpu; Mkl; Mpi; Gpu] [In Func; Any; Out Func]; (* src/vml/matrix/math_2op/matasinh.hpp:5-17 *)
  F "matan_core" "src/vml/matrix/math_2op/matatan.hpp:5" [Cpu; Mkl; Mpi; Gpu] [In Func; Any; Out Func]; (* src/vml/matrix/math_2op/matatan.hpp:5-17 *)
  F "matanh_core" "src/vml/matrix/math_2op/matatanh.hpp:5" [Cpu; Mkl; Mpi; Gpu] [In Func; Any; Out Func]; (* src/vml/matrix/math_2op/matatanh.hpp:5-17 *)
  F "mceil_core" "src/vml/matrix/math_2op/matceil.hpp:5" [Cpu; Mkl; Mpi; Gpu] [In Func; Any; Out Func]; (* src/vml/matrix/math_2op/matceil.hpp:5-17 *)
  F "mexp_core" "src/vml/matrix/math_2op/matexp.hpp:5" [Cpu; Mkl; Mpi; Gpu] [In Func; Any; Out Func]; (* src/vml/matrix/math_2op/matexp.hpp:5-17 *)
  F "mfloor_core" "src/vml/matrix/math_2op/matfloor.hpp:5" [Cpu; Mkl; Mpi; Gpu] [In Func; Any; Out Func]; (* src/vml/matrix/math_2op/matfloor.hpp:5-17 *)
  F "mreciprocal_core" "src/vml/matrix/math_2op/matreciprocal.hpp:5" [Cpu; Mkl; Mpi; Gpu] [In Func; Any; Out Func]; (* src/vml/matrix/math_2op/matreciprocal.hpp:5-18 *)
  F "msign_core" "src/vml/matrix/math_2op/matsign.hpp:5" [Cpu; Mkl; Mpi; Gpu] [In Func; Any; Out Func]; (* src/vml/matrix/math_2op/matsign.hpp:5-17 *)
  F "msin_core" "src/vml/matrix/math_2op/matsin.hpp:5" [Cpu; Mkl; Mpi; Gpu] [In Func; Any; Out Func]; (* src/vml/matrix/math_2op/matsin.hpp:5-17 *)
  F "msinh_core" "src/vml/matrix/math_2op/matsinh.hpp:5" [Cpu; Mkl; Mpi; Gpu] [In Func; Any; Out Func]; (* src/vml/matrix/math_2op/matsinh.hpp:5-17 *)
  F "msqrt_core" "src/vml/matrix/math_2op/matsqrt.hpp:5" [Cpu; Mkl; Mpi; Gpu] [In Func; Any; Out Func]; (* src/vml/matrix/math_2op/matsqrt.hpp:5-17 *)
  F "mtan_core" "src/vml/matrix/math_2op/mattan.hpp:5" [Cpu; Mkl; Mpi; Gpu] [In Func; Any; Out Func]; (* src/vml/matrix/math_2op/mattan.hpp:5-17 *)
  F "mtanh_core" "src/vml/matrix/math_2op/mattanh.hpp:5" [Cpu; Mkl; Mpi; Gpu] [In Func; Any; Out Func]; (* src/vml/matrix/math_2op/mattanh.hpp:5-17 *)
  F "stadd_core" "src/vml/tensor/arithmetic/tensadd.hpp:6" [Cpu; Mkl; Mpi; Gpu] [In Func; Any; Out Func]; (* src/vml/tensor/arithmetic/tensadd.hpp:6-19 *)
  F "ttadd_core" "src/vml/tensor/arithmetic/tensadd.hpp:21" [Cpu; Mkl; Mpi; Gpu] [In Func; Any; Out Func]; (* src/vml/tensor/arithmetic/tensadd.hpp:21-35 *)
  F "stdiv_core" "src/vml/tensor/arithmetic/tensdiv.hpp:6" [Cpu; Mkl; Mpi; Gpu] [In Func; Any; Out Func]; (* src/vml/tensor/arithmetic/tensdiv.hpp:6-19 *)
  F "ttdiv_core" "src/vml/tensor/arithmetic/tensdiv.hpp:21" [Cpu; Mkl; Mpi; Gpu] [In Func; Any; Out Func]; (* src/vml/tensor/arithmetic/tensdiv.hpp:21-35 *)
  F "stmul_core" "src/vml/tensor/arithmetic/tensmul.hpp:6" [Cpu; Mkl; Mpi; Gpu] [In Func; Any; Out Func]; (* src/vml/tensor/arithmetic/tensmul.hpp:6-19 *)
  F "ttmul_core" "src/vml/tensor/arithmetic/tensmul.hpp:21" [Cpu; Mkl; Mpi; Gpu] [In Func; Any; Out Func]; (* src/vml/tensor/arithmetic/tensmul.hpp:21-35 *)
  F "stsub_core" "src/vml/tensor/arithmetic/tenssub.hpp:6" [Cpu; Mkl; Mpi; Gpu] [In Func; Any; Out Func]; (* src/vml/tensor/arithmetic/tenssub.hpp:6-19 *)
  F "ttsub_core" "src/vml/tensor/arithmetic/tenssub.hpp:21" [Cpu; Mkl; Mpi; Gpu] [In Func; Any; Out Func]; (* src/vml/tensor/arithmetic/tenssub.hpp:21-35 *)
  F "ttmax_core" "src/vml/tensor/math_1_3op/tensmax.hpp:5" [Cpu; Mkl; Mpi; Gpu] [In Func; Any; Out Func]; (* src/vml/tensor/math_1_3op/tensmax.hpp:5-19 *)
  F "stmax_core" "src/vml/tensor/math_1_3op/tensmax.hpp:21" [Cpu; Mkl; Mpi; Gpu] [In Func; Any; Out Func]; (* src/vml/tensor/math_1_3op/tensmax.hpp:21-35 *)
  F "tmax_core" "src/vml/tensor/math_1_3op/tensmax.hpp:37" [Cpu; Mkl; Mpi; Gpu] [In Func; Any; Out Func; Any; If ([Any; Return]) ([Any; Return])]; (* src/vml/tensor/math_1_3op/tensmax.hpp:37-49 *)
  F "ttmin_core" "src/vml/tensor/math_1_3op/tensmin.hpp:5" [Cpu; Mkl; Mpi; Gpu] [In Func; Any; Out Func]; (* src/vml/tensor/math_1_3op/tensmin.hpp:5-19 *)
  F "stmin_core" "src/vml/tensor/math_1_3op/tensmin.hpp:21" [Cpu; Mkl; Mpi; Gpu] [In Func; Any; Out Func]; (* src/vml/tensor/math_1_3op/tensmin.hpp:21-35 *)
  F "tmin_core" "src/vml/tensor/math_1_3op/tensmin.hpp:37" [Cpu; Mkl; Mpi; Gpu] [In Func; Any; Out Func; Any; If ([Any; Return]) ([Any; Return])]; (* src/vml/tensor/math_1_3op/tensmin.hpp:37-49 *)
  F "ttpow_core" "src/vml/tensor/math_1_3op/tenspow.hpp:5" [Cpu; Mkl; Mpi; Gpu] [In Func; Any; Out Func]; (* src/vml/tensor/math_1_3op/tenspow.hpp:5-19 *)
  F "stpow_core" "src/vml/tensor/math_1_3op/tenspow.hpp:21" [Cpu; Mkl; Mpi; Gpu] [In Func; Any; Out Func]; (* src/vml/tensor/math_1_3op/tenspow.hpp:21-35 *)
  F "talo_core" "src/vml/tensor/math_2op/tensalo.hpp:5" [Cpu; Mkl; Mpi; Gpu] [In Func; Any; Out Func]; (* src/vml/tensor/math_2op/tensalo.hpp:5-19 *)
  F "tasin_core" "src/vml/tensor/math_2op/tensasin.hpp:5" [Cpu; Mkl; Mpi; Gpu] [In Func; Any; Out Func]; (* src/vml/tensor/math_2op/tensasin.hpp:5-17 *)
  F "tasinh_core" "src/vml/tensor/math_2op/tensasinh.hpp:5" [Cpu; Mkl; Mpi; Gpu] [In Func; Any; Out Func]; (* src/vml/tensor/math_2op/tensasinh.hpp:5-17 *)
  F "tatan_core" "src/vml/tensor/math_2op/tensatan.hpp:5" [Cpu; Mkl; Mpi; Gpu] [In Func; Any; Out Func]; (* src/vml/tensor/math_2op/tensatan.hpp:5-17 *)
  F "tatanh_core" "src/vml/tensor/math_2op/tensatanh.hpp:5" [Cpu; Mkl; Mpi; Gpu] [In Func; Any; Out Func]; (* src/vml/tensor/math_2op/tensatanh.hpp:5-17 *)
  F "tceil_core" "src/vml/tensor/math_2op/tensceil.hpp:5" [Cpu; Mkl; Mpi; Gpu] [In Func; Any; Out Func]; (* src/vml/tensor/math_2op/tensceil.hpp:5-17 *)
  F "texp_core" "src/vml/tensor/math_2op/tensexp.hpp:5" [Cpu; Mkl; Mpi; Gpu] [In Func; Any; Out Func]; (* src/vml/tensor/math_2op/tensexp.hpp:5-17 *)
  F "tfloor_core" "src/vml/tensor/math_2op/tensfloor.hpp:5" [Cpu; Mkl; Mpi; Gpu] [In Func; Any; Out Func]; (* src/vml/tensor/math_2op/tensfloor.hpp:5-17 *)
  F "treciprocal_core" "src/vml/tensor/math_2op/tensreciprocal.hpp:5" [Cpu; Mkl; Mpi; Gpu] [In Func; Any; Out Func]; (* src/vml/tensor/math_2op/tensreciprocal.hpp:5-18 *)
  F "tsign_core" "src/vml/tensor/math_2op/tenssign.hpp:5" [Cpu; Mkl; Mpi; Gpu] [In Func; Any; Out Func]; (* src/vml/tensor/math_2op/tenssign.hpp:5-17 *)
  F "tsin_core" "src/vml/tensor/math_2op/tenssin.hpp:5" [Cpu; Mkl; Mpi; Gpu] [In Func; Any; Out Func]; (* src/vml/tensor/math_2op/tenssin.hpp:5-17 *)
  F "tsinh_core" "src/vml/tensor/math_2op/tenssinh.hpp:5" [Cpu; Mkl; Mpi; Gpu] [In Func; Any; Out Func]; (* src/vml/tensor/math_2op/tenssinh.hpp:5-17 *)
  F "tsqrt_core" "src/vml/tensor/math_2op/tenssqrt.hpp:5" [Cpu; Mkl; Mpi; Gpu] [In Func; Any; Out Func]; (* src/vml/tensor/math_2op/tenssqrt.hpp:5-17 *)
  F "ttan_core" "src/vml/tensor/math_2op/tenstan.hpp:5" [Cpu; Mkl; Mpi; Gpu] [In Func; Any; Out Func]; (* src/vml/tensor/math_2op/tenstan.hpp:5-17 *)
  F "ttanh_core" "src/vml/tensor/math_2op/tenstanh.hpp:5" [Cpu; Mkl; Mpi; Gpu] [In Func; Any; Out Func]; (* src/vml/tensor/math_2op/tenstanh.hpp:5-17 *)
  F "svadd_core" "src/vml/vector/arithmetic/vecadd.hpp:6" [Cpu; Mkl; Mpi; Gpu] [In Func; Any; Out Func]; (* src/vml/vector/arithmetic/vecadd.hpp:6-19 *)
  F "vvadd_core" "src/vml/vector/arithmetic/vecadd.hpp:21" [Cpu; Mkl; Mpi; Gpu] [In Func; Any; Out Func]; (* src/vml/vector/arithmetic/vecadd.hpp:21-34 *)
  F "svdiv_core" "src/vml/vector/arithmetic/vecdiv.hpp:6" [Cpu; Mkl; Mpi; Gpu] [In Func; Any; Out Func]; (* src/vml/vector/arithmetic/vecdiv.hpp:6-19 *)
  F "vvdiv_core" "src/vml/vector/arithmetic/vecdiv.hpp:21" [Cpu; Mkl; Mpi; Gpu] [In Func; Any; Out Func]; (* src/vml/vector/arithmetic/vecdiv.hpp:21-34 *)
  F "svmul_core" "src/vml/vector/arithmetic/vecmul.hpp:6" [Cpu; Mkl; Mpi; Gpu] [In Func; Any; Out Func]; (* src/vml/vector/arithmetic/vecmul.hpp:6-19 *)
  F "vvmul_core" "src/vml/vector/arithmetic/vecmul.hpp:21" [Cpu; Mkl; Mpi; Gpu] [In Func; Any; Out Func]; (* src/vml/vector/arithmetic/vecmul.hpp:21-34 *)
  F "svsub_core" "src/vml/vector/arithmetic/vecsub.hpp:6" [Cpu; Mkl; Mpi; Gpu] [In Func; Any; Out Func]; (* src/vml/vector/arithmetic/vecsub.hpp:6-19 *)
  F "vvsub_core" "src/vml/vector/arithmetic/vecsub.hpp:21" [Cpu; Mkl; Mpi; Gpu] [In Func; Any; Out Func]; (* src/vml/vector/arithmetic/vecsub.hpp:21-34 *)
  F "vvmax_core" "src/vml/vector/math_1_3op/vecmax.hpp:5" [Cpu; Mkl; Mpi; Gpu] [In Func; Any; Out Func]; (* src/vml/vector/math_1_3op/vecmax.hpp:5-18 *)
  F "svmax_core" "src/vml/vector/math_1_3op/vecmax.hpp:20" [Cpu; Mkl; Mpi; Gpu] [In Func; Any; Out Func]; (* src/vml/vector/math_1_3op/vecmax.hpp:20-33 *)
  F "vmax_core" "src/vml/vector/math_1_3op/vecmax.hpp:35" [Cpu; Mkl; Mpi; Gpu] [In Func; Any; Out Func; Any; Return]; (* src/vml/vector/math_1_3op/vecmax.hpp:35-43 *)
  F "vvmin_core" "src/vml/vector/math_1_3op/vecmin.hpp:5" [Cpu; Mkl; Mpi; Gpu] [In Func; Any; Out Func]; (* src/vml/vector/math_1_3op/vecmin.hpp:5-18 *)
  F "svmin_core" "src/vml/vector/math_1_3op/vecmin.hpp:20" [Cpu; Mkl; Mpi; Gpu] [In Func; Any; Out Func]; (* src/vml/vector/math_1_3op/vecmin.hpp:20-33 *)
  F "vmin_core" "src/vml/vector/math_1_3op/vecmin.hpp:35" [Cpu; Mkl; Mpi; Gpu] [In Func; Any; Out Func; Any; Return]; (* src/vml/vector/math_1_3op/vecmin.hpp:35-43 *)
  F "vvpow_core" "src/vml/vector/math_1_3op/vecpow.hpp:5" [Cpu; Mkl; Mpi; Gpu] [In Func; Any; Out Func]; (* src/vml/vector/math_1_3op/vecpow.hpp:5-18 *)
  F "svpow_core" "src/vml/vector/math_1_3op/vecpow.hpp:20" [Cpu; Mkl; Mpi; Gpu] [In Func; Any; Out Func]; (* src/vml/vector/math_1_3op/vecpow.hpp:20-33 *)
  F "vecalo_core" "src/vml/vector/math_2op/vecalo.hpp:5" [Cpu; Mkl; Mpi; Gpu] [In Func; Any; Out Func]; (* src/vml/vector/math_2op/vecalo.hpp:5-18 *)
  F "vasin_core" "src/vml/vector/math_2op/vecasin.hpp:5" [Cpu; Mkl; Mpi; Gpu] [In Func; Any; Out Func]; (* src/vml/vector/math_2op/vecasin.hpp:5-16 *)
  F "vasinh_core" "src/vml/vector/math_2op/vecasinh.hpp:5" [Cpu; Mkl; Mpi; Gpu] [In Func; Any; Out Func]; (* src/vml/vector/math_2op/vecasinh.hpp:5-16 *)
  F "vatan_core" "src/vml/vector/math_2op/vecatan.hpp:5" [Cpu; Mkl; Mpi; Gpu] [In Func; Any; Out Func]; (* src/vml/vector/math_2op/vecatan.hpp:5-16 *)
  F "vatanh_core" "src/vml/vector/math_2op/vecatanh.hpp:5" [Cpu; Mkl; Mpi; Gpu] [In Func; Any; Out Func]; (* src/vml/vector/math_2op/vecatanh.hpp:5-16 *)
  F "vceil_core" "src/vml/vector/math_2op/vecceil.hpp:5" [Cpu; Mkl; Mpi; Gpu] [In Func; Any; Out Func]; (* src/vml/vector/math_2op/vecceil.hpp:5-16 *)
  F "vexp_core" "src/vml/vector/math_2op/vecexp.hpp:5" [Cpu; Mkl; Mpi; Gpu] [In Func; Any; Out Func]; (* src/vml/vector/math_2op/vecexp.hpp:5-16 *)
  F "vfloor_core" "src/vml/vector/math_2op/vecfloor.hpp:5" [Cpu; Mkl; Mpi; Gpu] [In Func; Any; Out Func]; (* src/vml/vector/math_2op/vecfloor.hpp:5-16 *)
  F "vreciprocal_core" "src/vml/vector/math_2op/vecreciprocal.hpp:5" [Cpu; Mkl; Mpi; Gpu] [In Func; Any; Out Func]; (* src/vml/vector/math_2op/vecreciprocal.hpp:5-17 *)
  F "vsign_core" "src/vml/vector/math_2op/vecsign.hpp:5" [Cpu; Mkl; Mpi; Gpu] [In Func; Any; Out Func]; (* src/vml/vector/math_2op/vecsign.hpp:5-16 *)
  F "vsin_core" "src/vml/vector/math_2op/vecsin.hpp:5" [Cpu; Mkl; Mpi; Gpu] [In Func; Any; Out Func]; (* src/vml/vector/math_2op/vecsin.hpp:5-16 *)
  F "vsinh_core" "src/vml/vector/math_2op/vecsinh.hpp:5" [Cpu; Mkl; Mpi; Gpu] [In Func; Any; Out Func]; (* src/vml/vector/math_2op/vecsinh.hpp:5-16 *)
  F "vsqrt_core" "src/vml/vector/math_2op/vecsqrt.hpp:5" [Cpu; Mkl; Mpi; Gpu] [In Func; Any; Out Func]; (* src/vml/vector/math_2op/vecsqrt.hpp:5-16 *)
  F "vtan_core" "src/vml/vector/math_2op/vectan.hpp:5" [Cpu; Mkl; Mpi; Gpu] [In Func; Any; Out Func]; (* src/vml/vector/math_2op/vectan.hpp:5-16 *)
  F "vtanh_core" "src/vml/vector/math_2op/vectanh.hpp:5" [Cpu; Mkl; Mpi; Gpu] [In Func; Any; Out Func] (* src/vml/vector/math_2op/vectanh.hpp:5-16 *)
].

Definition all_functions : list func := functions_1 ++ functions_2 ++ functions_3 ++ functions_4 ++ functions_5.
