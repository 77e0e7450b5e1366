-Q theories Verif
theories/Base.v
theories/RC.v
theories/M_Tensor.v
theories/S_Tensor.v
theories/L_Tensor.v
theories/L_Tensor2.v
theories/P_Tensor.v
theories/M_Scheme.v
theories/S_Scheme.v
theories/L_Scheme.v
theories/L_Scheme2.v
theories/L_Scheme3.v
theories/P_Scheme.v
theories/M_Sphere.v
theories/S_Sphere.v
theories/L_Sphere.v
theories/L_Sphere2.v
theories/P_Sphere.v
theories/L_Mesh.v
theories/P_Mesh.v
theories/M_Names.v
theories/L_Names.v
theories/P_Names.v
theories/M_Util.v
theories/S_Util.v
theories/L_Util.v
theories/L_Malloc.v
theories/P_Util.v
theories/Loops.v
theories/M_Evect.v
theories/S_Evect.v
theories/L_Evect.v
theories/L_Evect2.v
theories/L_Evect3.v
theories/P_Evect.v
theories/M_Grid.v
theories/S_Grid.v
theories/L_Grid.v
theories/L_Grid2.v
theories/L_Grid3.v
theories/L_Grid4.v
theories/L_Grid5.v
theories/L_Grid6.v
theories/P_Grid.v
theories/M_Interp.v
theories/S_Interp.v
theories/L_Interp.v
theories/L_Interp2.v
theories/L_Interp3.v
theories/P_Interp.v
theories/M_Matgrid.v
theories/S_Matgrid.v
theories/L_Matgrid.v
theories/L_Matgrid2.v
theories/P_Matgrid.v
theories/M_Opt.v
theories/S_Opt.v
theories/L_Opt.v
theories/P_Opt.v
theories/M_Conv.v
theories/L_Conv.v
theories/P_Conv.v
theories/M_Op.v
theories/S_Op.v
theories/L_Op.v
theories/L_Op2.v
theories/L_Op3.v
theories/L_Dft.v
theories/L_Op4.v
theories/L_Op5.v
theories/P_Op.v
theories/M_Gv.v
theories/S_Gv.v
theories/L_Gv.v
theories/P_Gv.v
theories/M_Plan.v
theories/S_Plan.v
theories/L_Plan.v
theories/P_Plan.v
theories/M_Cur.v
theories/S_Cur.v
theories/L_Cur.v
theories/P_Cur.v
theories/M_Fld.v
theories/S_Fld.v
theories/L_Fld.v
theories/L_Fld2.v
theories/L_Fld3.v
theories/P_Fld.v
theories/M_Pha.v
theories/S_Pha.v
theories/L_Pha.v
theories/L_Pha2.v
theories/L_Pha3.v
theories/L_Div.v
theories/P_Pha.v
theories/M_Lin.v
theories/S_Lin.v
theories/L_Lin.v
theories/L_Lin2.v
theories/L_Lin3.v
theories/L_Lin4.v
theories/P_Lin.v
theories/M_Half.v
theories/S_Half.v
theories/L_Half.v
theories/L_Half2.v
theories/P_Half.v
theories/M_Out.v
theories/S_Out.v
theories/L_Out.v
theories/L_Out2.v
theories/L_Out3.v
theories/L_Out4.v
theories/L_Out5.v
theories/L_Out6.v
theories/L_Out7.v
theories/P_Out.v
theories/M_Data.v
theories/S_Data.v
theories/L_Data.v
theories/L_Data2.v
theories/L_Data3.v
theories/L_Data4.v
theories/L_Data5.v
theories/L_Data6.v
theories/L_Data7.v
theories/L_Data8.v
theories/L_Data9.v
theories/L_Data10.v
theories/L_Data11.v
theories/L_Data12.v
theories/P_Data.v
theories/M_Trans.v
theories/S_Trans.v
theories/L_Trans.v
theories/L_Trans2.v
theories/L_Trans3.v
theories/P_Trans.v
theories/M_Eig.v
theories/S_Eig.v
theories/L_Mat.v
theories/L_Eig.v
theories/L_Eig2.v
theories/L_Eig3.v
theories/L_Eig4.v
theories/L_Eig5.v
theories/L_Eig6.v
theories/L_Eig7.v
theories/L_Eig8.v
theories/L_Eig9.v
theories/L_Eig10.v
theories/L_Eig11.v
theories/L_Eig12.v
theories/L_Eig13.v
theories/L_Eig14.v
theories/L_Eig15.v
theories/L_EigEx.v
theories/P_Eig.v
theories/M_Apx.v
theories/S_Apx.v
theories/L_Apx1.v
theories/L_Apx2.v
theories/L_Apx3.v
theories/L_Apx4.v
theories/L_ApxEx.v
theories/P_Apx.v
theories/M_Dav.v
theories/S_Dav.v
theories/L_Dav.v
theories/L_Dav2.v
theories/L_Dav3.v
theories/L_Dav4.v
theories/L_Dav5.v
theories/L_Dav6.v
theories/L_Dav7.v
theories/L_DavEx.v
theories/P_Dav.v
theories/M_Findk.v
theories/S_Findk.v
theories/L_Findk.v
theories/L_Findk2.v
theories/L_FindkEx.v
theories/P_Findk.v
theories/M_Ovl.v
theories/S_Ovl.v
theories/L_Ovl.v
theories/L_Ovl2.v
theories/L_Ovl3.v
theories/P_Ovl.v
theories/M_Kpt.v
theories/S_Kpt.v
theories/L_Kpt1.v
theories/L_Kpt2.v
theories/L_Kpt3.v
theories/L_Kpt4.v
theories/L_Kpt5.v
theories/L_Kpt6.v
theories/L_KptEx.v
theories/P_Kpt.v
theories/M_Mx.v
theories/S_Mx.v
theories/L_Mx1.v
theories/L_Mx2.v
theories/L_Mx3.v
theories/L_Mx4.v
theories/L_Mx5.v
theories/L_Mx6.v
theories/P_Mx.v
theories/S_Mir.v
theories/L_Mir1.v
theories/L_Mir2.v
theories/L_Mir3.v
theories/L_Mir4.v
theories/P_Mir.v
theories/M_Tgt.v
theories/S_Tgt.v
theories/L_Tgt1.v
theories/L_Tgt2.v
theories/L_Tgt3.v
theories/L_Tgt4.v
theories/L_TgtEx.v
theories/P_Tgt.v
theories/M_Fob.v
theories/S_Fob.v
theories/L_Fob1.v
theories/L_Fob2.v
theories/L_Fob3.v
theories/L_Fob4.v
theories/L_Fob5.v
theories/P_Fob.v
theories/S_Cmp.v
theories/L_Cmp1.v
theories/L_Cmp2.v
theories/L_Cmp3.v
theories/L_Cmp4.v
theories/L_Cmp5.v
theories/L_Cmp6.v
theories/L_Cmp7.v
theories/P_Cmp.v
theories/S_Spec.v
theories/L_Spec1.v
theories/L_Spec2.v
theories/L_Spec3.v
theories/L_Spec4.v
theories/L_Spec5.v
theories/L_Spec6.v
theories/L_Spec7.v
theories/P_Spec.v
theories/S_Rev.v
theories/L_Rev1.v
theories/L_Rev2.v
theories/L_Rev3.v
theories/L_Rev4.v
theories/P_Rev.v
theories/M_Med.v
theories/S_Med.v
theories/L_Med1.v
theories/L_Med2.v
theories/L_Med3.v
theories/L_Med4.v
theories/P_Med.v
theories/M_Real.v
theories/S_Real.v
theories/L_Real1.v
theories/L_Real2.v
theories/L_Real3.v
theories/L_Real4.v
theories/L_Real5.v
theories/L_Real6.v
theories/P_Real.v
theories/S_Rbd.v
theories/L_Real7.v
theories/L_Real8.v
theories/P_Rbd.v
theories/M_Mpi.v
theories/S_Mpi.v
theories/L_Mpi1.v
theories/L_Mpi2.v
theories/L_Mpi3.v
theories/L_Mpi4.v
theories/P_Mpi.v
theories/M_Pcg.v
theories/S_Pcg.v
theories/L_Pcg1.v
theories/L_Pcg2.v
theories/M_Pmx.v
theories/S_Pmx.v
theories/L_Pmx1.v
theories/L_Pmx2.v
theories/L_Pmx3.v
theories/P_Pcg.v
theories/M_Match.v
theories/S_Match.v
theories/L_Match.v
theories/L_Match2.v
theories/P_Match.v
theories/M_Fgrad.v
theories/S_Fgrad.v
theories/L_Fgrad.v
theories/L_Fgrad2.v
theories/L_Fgrad3.v
theories/P_Fgrad.v
theories/M_Band.v
theories/S_Band.v
theories/L_Band.v
theories/L_Band2.v
theories/P_Band.v
theories/M_Vel.v
theories/S_Vel.v
theories/L_Vel.v
theories/L_Vel2.v
theories/L_Vel3.v
theories/P_Vel.v
theories/M_Load.v
theories/S_Load.v
theories/L_Load.v
theories/P_Load.v
theories/M_Smob.v
theories/L_Smob.v
theories/P_Smob.v
theories/M_Pnt.v
theories/S_Pnt.v
theories/L_Pnt.v
theories/P_Pnt.v
