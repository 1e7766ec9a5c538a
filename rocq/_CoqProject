-Q theories Verif
theories/Base.v
theories/L_Base.v
theories/M_Translate.v
theories/S_Translate.v
theories/L_Concentric.v
theories/L_Bins.v
theories/L_Angles.v
theories/Prop_Translate.v
theories/L_Trig.v
theories/M_Mapper.v
theories/S_Mapper.v
theories/L_Mapper.v
theories/L_Solid.v
theories/L_Draw.v
theories/Prop_Mapper.v
theories/M_Utility.v
theories/S_Utility.v
theories/L_Utility.v
theories/L_Utility2.v
theories/Prop_Utility.v
theories/M_Pool.v
theories/S_Pool.v
theories/L_Pool.v
theories/Prop_Pool.v
theories/M_Io.v
theories/S_Io.v
theories/L_Array.v
theories/L_Io.v
theories/L_Io2.v
theories/Prop_Io.v
theories/M_Header.v
theories/S_Header.v
theories/L_Header.v
theories/L_Header2.v
theories/L_Header3.v
theories/L_Header4.v
theories/L_Header5.v
theories/L_Header6.v
theories/L_Header7.v
theories/Prop_Header.v
theories/BaseX.v
theories/M_Metric.v
theories/M_Cache.v
theories/S_Metric.v
theories/L_Pidx.v
theories/L_Metric.v
theories/L_Metric2.v
theories/L_Metric3.v
theories/L_Metric4.v
theories/L_Cache.v
theories/L_Construct.v
theories/L_Construct2.v
theories/L_Metric5.v
theories/S_Safe.v
theories/L_Safe.v
theories/S_Cache.v
theories/L_Cache2.v
theories/Prop_Metric.v
theories/L_Mapper2.v
theories/Prop_Mapper2.v
theories/M_Data.v
theories/M_Float.v
theories/S_Data.v
theories/L_Data.v
theories/L_Data2.v
theories/L_Data3.v
theories/L_Data4.v
theories/L_Data5.v
theories/Prop_Data.v
theories/M_Peak.v
theories/S_Peak.v
theories/L_Peak.v
theories/L_Peak2.v
theories/L_Peak3.v
theories/Prop_Peak.v
theories/M_Retina.v
theories/S_Retina.v
theories/L_Retina.v
theories/Prop_Retina.v
theories/M_Gss.v
theories/S_Gss.v
theories/L_Gss.v
theories/L_Gss2.v
theories/L_Gss3.v
theories/L_Gss4.v
theories/L_Gss5.v
theories/L_Gss6.v
theories/L_Gss7.v
theories/L_Pupil.v
theories/L_Expz.v
theories/L_Pupil2.v
theories/L_Pupil3.v
theories/L_Pupil4.v
theories/L_Gss8.v
theories/L_Gss9.v
theories/L_Gss10.v
theories/L_Gss11.v
theories/Prop_Gss.v
theories/M_Imgmetric.v
theories/S_Imgmetric.v
theories/S_Imgmetric2.v
theories/L_Imgmetric.v
theories/L_Imgmetric2.v
theories/L_Imgmetric3.v
theories/L_Imgmetric4.v
theories/L_Imgmetric5.v
theories/S_Imgmetric3.v
theories/L_Imgmetric6.v
theories/Prop_Imgmetric.v
theories/M_Paths.v
theories/S_Paths.v
theories/L_Paths.v
theories/L_Paths2.v
theories/Prop_Paths.v
theories/M_Gsscmd.v
theories/S_Gsscmd.v
theories/L_Gsscmd.v
theories/Prop_Gsscmd.v
theories/M_Rotate.v
theories/S_Rotate.v
theories/L_Rotate.v
theories/L_Rotate2.v
theories/L_Rotate3.v
theories/Prop_Rotate.v
theories/M_Transform.v
theories/S_Transform.v
theories/L_Transform.v
theories/Prop_Transform.v
theories/M_Viewfile.v
theories/S_Viewfile.v
theories/L_Viewfile.v
theories/Prop_Viewfile.v
theories/M_Skybin.v
theories/S_Skybin.v
theories/L_Skybin.v
theories/Prop_Skybin.v
theories/M_Smooth.v
theories/S_Smooth.v
theories/L_Smooth.v
theories/L_Smooth2.v
theories/L_Smooth3.v
theories/L_Smooth4.v
theories/L_Smooth5.v
theories/Prop_Smooth.v
theories/L_Construct3.v
theories/Prop_Metric2.v
theories/L_Smooth6.v
theories/Prop_Smooth2.v
theories/M_Tools.v
theories/S_Tools.v
theories/L_Tools.v
theories/L_Tools2.v
theories/Prop_Tools.v
theories/M_Bin64.v
theories/S_Float.v
theories/L_Float64.v
theories/L_Bin64.v
theories/L_Norm64.v
theories/Prop_Float.v
theories/M_Angle64.v
theories/S_Angle64.v
theories/L_Angle64.v
theories/Prop_Angle64.v
theories/M_Sum64.v
theories/S_Sum64.v
theories/L_Sum64.v
theories/Prop_Sum64.v
theories/M_Raypath.v
theories/S_Raypath.v
theories/L_Raypath.v
theories/Prop_Raypath.v
theories/M_Initimg.v
theories/S_Initimg.v
theories/L_Grow.v
theories/L_Grow2.v
theories/L_Initimg.v
theories/L_Initimg2.v
theories/L_Initimg3.v
theories/L_Plot.v
theories/Prop_Initimg.v
theories/M_Convert.v
theories/S_Convert.v
theories/L_Convert.v
theories/L_Convert2.v
theories/L_Convert3.v
theories/L_Convert4.v
theories/Prop_Convert.v
theories/S_Resample.v
theories/L_Data6.v
theories/S_Nested.v
theories/L_Nested.v
theories/L_Nested2.v
theories/Prop_Nested.v
theories/M_Dtype.v
theories/L_Dtype.v
theories/Prop_Dtype.v
theories/M_Wrap.v
theories/S_Wrap.v
theories/L_Wrap.v
theories/L_Wrap2.v
theories/L_Wrap3.v
theories/L_Wrap4.v
theories/L_Wrap5.v
theories/L_Wrap6.v
theories/L_Wrap7.v
theories/L_Wrap8.v
theories/S_Wrap2.v
theories/L_Wrap9.v
theories/Prop_Wrap.v
theories/S_Inset.v
theories/L_Inset.v
theories/Prop_Inset.v
theories/M_Ndimage.v
theories/S_Ndimage.v
theories/L_Ndimage.v
theories/L_Ndimage2.v
theories/L_Ndimage3.v
theories/L_Ndimage4.v
theories/L_Ndimage5.v
theories/Prop_Ndimage.v
theories/S_Mirror.v
theories/L_Mirror.v
theories/L_Mirror2.v
theories/L_Kernel.v
theories/L_Kernel2.v
theories/L_Mirror3.v
theories/L_Mirror4.v
theories/L_Mirror5.v
theories/Prop_Mirror.v
theories/M_Quantile.v
theories/S_Spot.v
theories/L_Quantile.v
theories/L_Spot.v
theories/Prop_Quantile.v
theories/M_Resample.v
theories/S_Resamplend.v
theories/L_Resamplend.v
theories/L_Resamplend2.v
theories/L_Resamplend3.v
theories/L_Resamplend4.v
theories/Prop_Resamplend.v
theories/L_Retina2.v
theories/Prop_Retina2.v
theories/M_Pipe.v
theories/S_Pipe.v
theories/L_Pipe.v
theories/L_Pipe2.v
theories/L_Pipe3.v
theories/Prop_Pipe.v
theories/M_Pipe2.v
theories/S_Pipe2.v
theories/L_Pipe4.v
theories/Prop_Pipe2.v
theories/L_Tight.v
theories/Prop_Tight.v
theories/M_Lum64.v
theories/S_Lum64.v
theories/L_Lum64.v
theories/Prop_Lum64.v
theories/L_Tight2.v
theories/Prop_Tight2.v
theories/L_Tight3.v
theories/Prop_Tight3.v
theories/L_Weight.v
theories/Prop_Weight.v
theories/L_Scatter.v
theories/Prop_Scatter.v
theories/S_Brighter.v
theories/L_Brighter.v
theories/Prop_Brighter.v
theories/S_Units.v
theories/L_Units.v
theories/Prop_Units.v
theories/S_Order.v
theories/L_Order.v
theories/L_Order2.v
theories/Prop_Order.v
theories/L_Tight4.v
theories/Prop_Tight4.v
theories/S_Turn.v
theories/L_Turn.v
theories/Prop_Turn.v
theories/S_Split.v
theories/L_Split.v
theories/Prop_Split.v
theories/L_Uniform.v
theories/Prop_Uniform.v
theories/S_Level.v
theories/L_Level.v
theories/Prop_Level.v
theories/S_Unseen.v
theories/L_Unseen.v
theories/Prop_Unseen.v
theories/S_Length.v
theories/L_Length.v
theories/Prop_Length.v
theories/S_Dim.v
theories/L_Dim.v
theories/Prop_Dim.v
theories/S_Dim2.v
theories/L_Dim2.v
theories/Prop_Dim2.v
theories/S_Dim3.v
theories/L_Dim3.v
theories/Prop_Dim3.v
theories/S_Exposure.v
theories/L_Exposure.v
theories/Prop_Exposure.v
theories/L_Again.v
theories/Prop_Again.v
theories/S_Isometry.v
theories/L_Isometry.v
theories/Prop_Isometry.v
theories/S_Ties.v
theories/L_Ties.v
theories/Prop_Ties.v
theories/S_Dark.v
theories/L_Dark.v
theories/Prop_Dark.v
theories/S_Triangle.v
theories/L_Triangle.v
theories/Prop_Triangle.v
theories/S_Cull.v
theories/L_Cull.v
theories/Prop_Cull.v
theories/S_Affine.v
theories/L_Affine.v
theories/Prop_Affine.v
theories/S_Linear.v
theories/L_Linear.v
theories/Prop_Linear.v
